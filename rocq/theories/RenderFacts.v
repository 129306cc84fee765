(** Proofs about the renderer's sink calls and state. *)
From Coq Require Import ZArith Bool List Arith String Lia Relations.
From Verif Require Import F64 Kurbo Value Animated Batch Render RenderSpec.
Import ListNotations.

(** * The monad *)
Lemma mbind_out_ok {A B} (m : M A) (k : A -> M B) r b :
  r_out (mbind m k r) = Ok b -> exists a, r_out (m r) = Ok a /\ r_out (k a (r_st (m r))) = Ok b.
Proof.
  unfold mbind. destruct (m r) as [o st tr]; simpl. destruct o; simpl; try discriminate.
  intros H. eauto.
Qed.
Lemma mbind_events_ok {A B} (m : M A) (k : A -> M B) r a :
  r_out (m r) = Ok a ->
  mbind m k r = mkRun (r_out (k a (r_st (m r)))) (r_st (k a (r_st (m r))))
                      (r_trace (m r) ++ r_trace (k a (r_st (m r)))).
Proof. unfold mbind. destruct (m r) as [o st tr]; simpl. intros ->. reflexivity. Qed.

(** * Stack discipline *)
Lemma consume_all_app s es1 es2 :
  consume_all s (es1 ++ es2) =
  match consume_all s es1 with Some s' => consume_all s' es2 | None => None end.
Proof.
  revert s. induction es1 as [|e es1 IH]; intros s; simpl; [reflexivity|].
  destruct (consume s e); [apply IH|reflexivity].
Qed.

(** [m] takes the open-bracket stack from [P] to [Q] when it returns and
    never closes anything it may not. *)
Definition trans (m : M unit) (P Q : list bool) : Prop :=
  forall r s, exists s',
    consume_all (P ++ s) (events (m r)) = Some s' /\ (r_out (m r) = Ok tt -> s' = Q ++ s).

Lemma trans_bind m1 m2 P Q R : trans m1 P Q -> trans m2 Q R -> trans (m1 ;; m2) P R.
Proof.
  intros H1 H2 r s. destruct (H1 r s) as (s1 & E1 & O1).
  unfold mbind, events in *. destruct (m1 r) as [o st tr]; simpl in *.
  destruct o as [[]| |]; simpl.
  - specialize (O1 eq_refl). subst s1. destruct (H2 st s) as (s2 & E2 & O2).
    exists s2. rewrite map_app, consume_all_app. unfold call in *. rewrite E1. split; auto.
  - exists s1. split; auto; discriminate.
  - exists s1. split; auto; discriminate.
Qed.
Lemma trans_ret P : trans (ret tt) P P.
Proof. intros r s. exists (P ++ s). split; auto. Qed.
Lemma trans_emit e P Q : (forall s, consume (P ++ s) e = Some (Q ++ s)) -> trans (emit e) P Q.
Proof. intros H r s. exists (Q ++ s). simpl. rewrite H. auto. Qed.
Lemma trans_frame m P : trans m [] [] -> trans m P P.
Proof. intros H r s. exact (H r (P ++ s)). Qed.
Lemma trans_forM {A} (l : list A) (f : A -> M unit) P :
  (forall x, In x l -> trans (f x) P P) -> trans (forM l f) P P.
Proof.
  induction l as [|x l IH]; simpl; intros H; [apply trans_ret|].
  eapply trans_bind; [apply H; now left|apply IH; intros; apply H; now right].
Qed.
Lemma trans_oof P Q : trans oof P Q.
Proof. intros r s. exists (P ++ s). simpl. split; [auto|discriminate]. Qed.

Lemma trans_emits_pop n P : trans (emits (repeat EvPop n)) (repeat true n ++ P) P.
Proof.
  intros r s. exists (P ++ s). split; auto. unfold events. simpl.
  rewrite map_map, map_id. induction n; simpl; auto.
Qed.
Lemma trans_mask E tf frame m P : trans (render_mask E tf frame m) P (true :: P).
Proof.
  intros r s. unfold render_mask. destruct (geometry_eval E (mk_geometry m) frame); simpl.
  - eexists; split; eauto.
  - eexists; split; eauto; discriminate.
  - eexists; split; eauto; discriminate.
Qed.
Lemma trans_masks E tf frame ms P :
  trans (forM ms (render_mask E tf frame)) P (repeat true (List.length ms) ++ P).
Proof.
  revert P. induction ms as [|m ms IH]; intros P; simpl; [apply trans_ret|].
  eapply trans_bind; [apply trans_mask|].
  specialize (IH (true :: P)).
  replace (true :: repeat true (List.length ms) ++ P)
    with (repeat true (List.length ms) ++ true :: P); [exact IH|].
  clear. induction (List.length ms); simpl; [reflexivity|]. now rewrite IHn.
Qed.
Lemma consume_draws s (f : paint -> call) ps :
  (forall p, exists r, f p = (EvDraw p, r)) ->
  consume_all s (map fst (map f ps)) = Some s.
Proof.
  intros H. induction ps as [|p ps IH]; simpl; auto.
  destruct (H p) as (r & ->). simpl. exact IH.
Qed.
Lemma trans_content E shapes tf alpha frame P : trans (render_content_shapes E shapes tf alpha frame) P P.
Proof.
  intros r s. unfold render_content_shapes.
  destruct (render_shapes E shapes tf alpha frame (rn_batch r)); simpl;
    try (eexists; split; [reflexivity|discriminate]).
  destruct (batch_render E a); simpl; try (eexists; split; [reflexivity|discriminate]).
  exists (P ++ s). split; [|auto]. unfold events. simpl. apply consume_draws. eauto.
Qed.

Lemma trans_render_layer E fuel : forall c set ly idx tf alpha frame,
  trans (render_layer E fuel c set ly idx tf alpha frame) [] [].
Proof.
  induction fuel as [|fuel IH]; intros; simpl; [apply trans_oof|].
  destruct (negb (in_window ly frame)); [apply trans_ret|].
  set (k := match ly_mask_layer ly with Some _ => 2 | None => 0 end).
  eapply trans_bind with (Q := [false]); [apply trans_emit; reflexivity|].
  eapply trans_bind with (Q := repeat true k ++ [false]).
  { unfold k. destruct (ly_mask_layer ly) as [[mode mi]|]; [|apply trans_ret].
    simpl repeat.
    eapply trans_bind with (Q := [true; false]); [apply trans_emit; reflexivity|].
    eapply trans_bind with (Q := [true; false]).
    - destruct (nth_error set mi); [apply trans_frame, IH|apply trans_ret].
    - apply trans_emit; reflexivity. }
  eapply trans_bind; [apply trans_masks|].
  eapply trans_bind.
  { instantiate (1 := repeat true (List.length (ly_masks ly)) ++ repeat true k ++ [false]).
    destruct (ly_content ly); [apply trans_ret| |apply trans_content].
    destruct (find_asset c name); [|apply trans_ret].
    apply trans_forM. intros x _. destruct (ly_is_mask x); [apply trans_ret|apply trans_frame, IH]. }
  eapply trans_bind.
  - rewrite app_assoc, <- repeat_app. apply trans_emits_pop.
  - apply trans_emit; reflexivity.
Qed.

Definition close_of (b : bool) : event := if b then EvPop else EvEnd.
Fixpoint unwinds (s : list bool) (es : list event) : Prop :=
  match s with
  | [] => nested es
  | b :: s => exists inner rest, es = inner ++ close_of b :: rest /\ nested inner /\ unwinds s rest
  end.
Lemma unwinds_draw s p es : unwinds s es -> unwinds s (EvDraw p :: es).
Proof.
  destruct s as [|b s]; simpl.
  - apply nested_draw.
  - intros (i & r & -> & Hi & Hr). exists (EvDraw p :: i), r.
    repeat split; auto. now apply nested_draw.
Qed.
Lemma unwinds_open s o es : opens_layer o -> unwinds (true :: s) es -> unwinds s (o :: es).
Proof.
  intros Ho (i & r & -> & Hi & Hr). simpl close_of. destruct s as [|b s]; simpl in *.
  - now apply nested_layer.
  - destruct Hr as (i2 & r2 & -> & Hi2 & Hr2).
    exists (o :: i ++ EvPop :: i2), r2. repeat split; auto.
    + simpl. now rewrite <- app_assoc.
    + now apply nested_layer.
Qed.
Lemma unwinds_begin s n k es : unwinds (false :: s) es -> unwinds s (EvBegin n k :: es).
Proof.
  intros (i & r & -> & Hi & Hr). simpl close_of. destruct s as [|b s]; simpl in *.
  - now apply nested_group.
  - destruct Hr as (i2 & r2 & -> & Hi2 & Hr2).
    exists (EvBegin n k :: i ++ EvEnd :: i2), r2. repeat split; auto.
    + simpl. now rewrite <- app_assoc.
    + now apply nested_group.
Qed.
Lemma consume_unwinds es : forall s, consume_all s es = Some [] -> unwinds s es.
Proof.
  induction es as [|e es IH]; intros s; simpl.
  - intros [= ->]. constructor.
  - destruct e; simpl.
    + intros H. apply unwinds_open; simpl; auto. now apply IH in H.
    + intros H. apply unwinds_open; simpl; auto. now apply IH in H.
    + destruct s as [|[] s]; try discriminate. intros H. apply IH in H.
      exists [], es. repeat split; auto. constructor.
    + intros H. apply unwinds_draw; auto.
    + intros H. apply unwinds_begin. now apply IH in H.
    + destruct s as [|[] s]; try discriminate. intros H. apply IH in H.
      exists [], es. repeat split; auto. constructor.
Qed.
Lemma consume_nested es : consume_all [] es = Some [] -> nested es.
Proof. exact (consume_unwinds es []). Qed.

Definition append_body E fuel c frame tf alpha : M unit :=
  forM (rev (enumerate (co_layers c))) (fun '(i, ly) =>
     if ly_is_mask ly then ret tt
     else render_layer E fuel c (co_layers c) ly i tf alpha frame).
Lemma trans_append_body E fuel c frame tf alpha : trans (append_body E fuel c frame tf alpha) [] [].
Proof.
  apply trans_forM. intros [i ly] _. destruct (ly_is_mask ly); [apply trans_ret|apply trans_render_layer].
Qed.
Lemma append_unfold E fuel c frame tf alpha r :
  append E fuel c frame tf alpha r =
  (emit (EvPushClip tf (full_rect c)) ;; append_body E fuel c frame tf alpha ;; emit EvPop)
    (mkRenderer batch_empty (rn_mask r)).
Proof. reflexivity. Qed.

Lemma append_nested E fuel c frame tf alpha r :
  r_out (append E fuel c frame tf alpha r) = Ok tt ->
  exists body,
    events (append E fuel c frame tf alpha r) = EvPushClip tf (full_rect c) :: body ++ [EvPop]
    /\ nested body.
Proof.
  rewrite append_unfold. intros H.
  apply mbind_out_ok in H as ([] & H1 & H2).
  apply mbind_out_ok in H2 as ([] & H2 & H3).
  set (r0 := r_st _) in H2, H3.
  exists (events (append_body E fuel c frame tf alpha r0)). split.
  - unfold events. rewrite (mbind_events_ok _ _ _ tt H1). cbn [r_trace].
    fold r0. rewrite (mbind_events_ok _ _ _ tt H2). cbn [r_trace].
    rewrite !map_app. reflexivity.
  - apply consume_nested.
    destruct (trans_append_body E fuel c frame tf alpha r0 []) as (s' & E' & O').
    simpl in *. rewrite E'. now rewrite (O' H2).
Qed.

Lemma append_never_overcloses E fuel c frame tf alpha r :
  exists stack, consume_all [] (events (append E fuel c frame tf alpha r)) = Some stack.
Proof.
  rewrite append_unfold.
  assert (T : trans (emit (EvPushClip tf (full_rect c)) ;; append_body E fuel c frame tf alpha ;; emit EvPop) [] []).
  { eapply trans_bind with (Q := [true]); [apply trans_emit; reflexivity|].
    eapply trans_bind with (Q := [true]); [apply trans_frame, trans_append_body|].
    apply trans_emit; reflexivity. }
  destruct (T (mkRenderer batch_empty (rn_mask r)) []) as (s' & E' & _). eauto.
Qed.

(** * Renderer state *)
Definition snap_ok (x : call) : Prop := is_mask_clip (fst x) \/ rn_mask (snd x) = [].
Record good (m : M unit) : Prop := mkGood {
  good_mask : rn_mask (r_st (m renderer_new)) = [];
  good_st : r_out (m renderer_new) = Ok tt -> r_st (m renderer_new) = renderer_new;
  good_snap : Forall snap_ok (r_trace (m renderer_new)) }.

Lemma good_bind m1 m2 : good m1 -> good m2 -> good (m1 ;; m2).
Proof.
  intros [A1 B1 C1] [A2 B2 C2].
  destruct (m1 renderer_new) as [o st tr] eqn:Em1; simpl in *.
  destruct o as [[]| |].
  - specialize (B1 eq_refl). subst st.
    constructor; unfold mbind; rewrite Em1; simpl; auto.
    apply Forall_app; auto.
  - constructor; unfold mbind; rewrite Em1; simpl; auto; discriminate.
  - constructor; unfold mbind; rewrite Em1; simpl; auto; discriminate.
Qed.
Lemma good_ret : good (ret tt).
Proof. constructor; simpl; auto. Qed.
Lemma good_oof : good oof.
Proof. constructor; simpl; auto. Qed.
Lemma good_emit e : good (emit e).
Proof. constructor; simpl; auto. constructor; auto. right. reflexivity. Qed.
Lemma good_emits es : good (emits es).
Proof.
  constructor; simpl; auto. induction es; simpl; constructor; auto. right. reflexivity.
Qed.
Lemma good_forM {A} (l : list A) (f : A -> M unit) :
  (forall x, In x l -> good (f x)) -> good (forM l f).
Proof.
  induction l as [|x l IH]; simpl; intros H; [apply good_ret|].
  apply good_bind; [apply H; now left|apply IH; intros; apply H; now right].
Qed.
Lemma good_mask_clip E tf frame m : good (render_mask E tf frame m).
Proof.
  constructor; unfold render_mask; destruct (geometry_eval E (mk_geometry m) frame);
    simpl; auto; try discriminate.
  constructor; auto. left. simpl. auto.
Qed.
Lemma good_content E shapes tf alpha frame : good (render_content_shapes E shapes tf alpha frame).
Proof.
  constructor; unfold render_content_shapes;
    destruct (render_shapes E shapes tf alpha frame (rn_batch renderer_new)); simpl; auto;
    destruct (batch_render E a); simpl; auto.
  apply Forall_map. apply Forall_forall. intros p _. right. reflexivity.
Qed.
Lemma good_render_layer E fuel : forall c set ly idx tf alpha frame,
  good (render_layer E fuel c set ly idx tf alpha frame).
Proof.
  induction fuel as [|fuel IH]; intros; simpl; [apply good_oof|].
  destruct (negb (in_window ly frame)); [apply good_ret|].
  apply good_bind; [apply good_emit|].
  apply good_bind.
  { destruct (ly_mask_layer ly) as [[mode mi]|]; [|apply good_ret].
    apply good_bind; [apply good_emit|]. apply good_bind; [|apply good_emit].
    destruct (nth_error set mi); [apply IH|apply good_ret]. }
  apply good_bind; [apply good_forM; intros; apply good_mask_clip|].
  apply good_bind.
  { destruct (ly_content ly); [apply good_ret| |apply good_content].
    destruct (find_asset c name); [|apply good_ret].
    apply good_forM. intros x _. destruct (ly_is_mask x); [apply good_ret|apply IH]. }
  apply good_bind; [apply good_emits|apply good_emit].
Qed.
Lemma good_append_body E fuel c frame tf alpha : good (append_body E fuel c frame tf alpha).
Proof.
  apply good_forM. intros [i ly] _. destruct (ly_is_mask ly); [apply good_ret|apply good_render_layer].
Qed.
Definition append_m E fuel c frame tf alpha : M unit :=
  emit (EvPushClip tf (full_rect c)) ;; append_body E fuel c frame tf alpha ;; emit EvPop.
Lemma good_append_m E fuel c frame tf alpha : good (append_m E fuel c frame tf alpha).
Proof. repeat (apply good_bind; [try apply good_emit; apply good_append_body|]); apply good_emit. Qed.

(** Whatever the batch holds, only leftover mask elements matter. *)
Lemma append_clean E fuel c frame tf alpha r :
  rn_mask r = [] -> append E fuel c frame tf alpha r = append_m E fuel c frame tf alpha renderer_new.
Proof. intros H. rewrite append_unfold, H. reflexivity. Qed.

Lemma used_clean r : used r -> r = renderer_new.
Proof.
  induction 1 as [|E fuel c frame tf alpha r Hr IH Ho]; [reflexivity|]. subst r.
  rewrite append_clean in * by reflexivity. now apply (good_append_m E fuel c frame tf alpha).
Qed.
Lemma used_crash_clean r : used_crash is_mask_clip r -> rn_mask r = [].
Proof.
  induction 1; auto.
  - rewrite append_clean in * by assumption. apply good_append_m.
  - cbn [rn_mask]. rewrite append_clean in * by assumption. apply good_append_m.
  - rewrite append_clean in H0 by assumption.
    destruct (good_append_m E fuel c frame tf alpha) as [_ _ G].
    rewrite Forall_forall in G. destruct (G _ H0) as [G'|G']; [now elim H1|exact G'].
Qed.

Lemma append_reuse E fuel c frame tf alpha r :
  used r -> append E fuel c frame tf alpha r = append E fuel c frame tf alpha renderer_new.
Proof. intros H. now rewrite (used_clean r H). Qed.
Lemma append_reuse_crash E fuel c frame tf alpha r :
  used_crash is_mask_clip r ->
  append E fuel c frame tf alpha r = append E fuel c frame tf alpha renderer_new.
Proof.
  intros H. rewrite (append_clean _ _ _ _ _ _ r) by now apply used_crash_clean.
  now rewrite append_clean.
Qed.

(** * Fuel *)
(** [below m m']: [m'] behaves like [m] wherever [m] does not exhaust its
    budget. *)
Definition below {A} (m m' : M A) : Prop := forall r, r_out (m r) <> Oof -> m' r = m r.
Lemma below_refl {A} (m : M A) : below m m.
Proof. intros r _. reflexivity. Qed.
Lemma below_bind {A B} (m m' : M A) (k k' : A -> M B) :
  below m m' -> (forall a, below (k a) (k' a)) -> below (mbind m k) (mbind m' k').
Proof.
  intros H1 H2 r. unfold mbind. specialize (H1 r). destruct (m r) as [o st tr]; simpl in *.
  destruct o as [a| |]; simpl; intros H.
  - rewrite H1 by discriminate. simpl. now rewrite H2.
  - now rewrite H1.
  - now elim H.
Qed.
Lemma below_forM {A} (l : list A) (f f' : A -> M unit) :
  (forall x, In x l -> below (f x) (f' x)) -> below (forM l f) (forM l f').
Proof.
  induction l as [|x l IH]; simpl; intros H; [apply below_refl|].
  apply below_bind; [apply H; now left|]. intros _. apply IH. intros; apply H; now right.
Qed.
Lemma below_render_layer E : forall fuel fuel' c set ly idx tf alpha frame,
  fuel <= fuel' ->
  below (render_layer E fuel c set ly idx tf alpha frame)
        (render_layer E fuel' c set ly idx tf alpha frame).
Proof.
  induction fuel as [|fuel IH]; intros fuel' c set ly idx tf alpha frame Hle.
  - intros r H. now elim H.
  - destruct fuel' as [|fuel']; [lia|]. assert (fuel <= fuel') by lia. simpl.
    destruct (negb (in_window ly frame)); [apply below_refl|].
    apply below_bind; [apply below_refl|intros _].
    apply below_bind.
    { destruct (ly_mask_layer ly) as [[mode mi]|]; [|apply below_refl].
      apply below_bind; [apply below_refl|intros _]. apply below_bind; [|intros _; apply below_refl].
      destruct (nth_error set mi); [now apply IH|apply below_refl]. }
    intros _. apply below_bind; [apply below_refl|intros _].
    apply below_bind; [|intros _; apply below_refl].
    destruct (ly_content ly); try apply below_refl.
    destruct (find_asset c name); [|apply below_refl].
    apply below_forM. intros x _. destruct (ly_is_mask x); [apply below_refl|now apply IH].
Qed.
Lemma append_fuel_mono E fuel fuel' c frame tf alpha r :
  fuel <= fuel' -> r_out (append E fuel c frame tf alpha r) <> Oof ->
  append E fuel' c frame tf alpha r = append E fuel c frame tf alpha r.
Proof.
  intros Hle. rewrite !append_unfold. apply below_bind; [apply below_refl|intros _].
  apply below_bind; [|intros _; apply below_refl].
  apply below_forM. intros [i ly] _. destruct (ly_is_mask ly); [apply below_refl|].
  now apply below_render_layer.
Qed.

(** * Termination *)
Lemma mapM_oof {A B} (f : A -> res B) l : (forall x, f x <> Oof) -> mapM f l <> Oof.
Proof.
  intros H. induction l as [|x l IH]; simpl; [discriminate|].
  specialize (H x). destruct (f x); simpl; try congruence.
  destruct (mapM f l); simpl; congruence.
Qed.
Lemma bind_oof {A B} (x : res A) (k : A -> res B) :
  x <> Oof -> (forall a, k a <> Oof) -> bind x k <> Oof.
Proof. destruct x; simpl; auto; discriminate. Qed.
Lemma index_oof {A} (l : list A) i : index l i <> Oof.
Proof. unfold index, of_option. destruct (nth_error l i); discriminate. Qed.
Lemma add_element_oof get a b : (forall i, get i <> Oof) -> add_element get a b <> Oof.
Proof.
  intros H. unfold add_element. repeat (apply bind_oof; [apply H|intros ?]). discriminate.
Qed.
Lemma to_path_oof get len closed : (forall i, get i <> Oof) -> to_path get len closed <> Oof.
Proof.
  intros H. unfold to_path. destruct (len =? 0); [discriminate|].
  apply bind_oof; [apply H|intros p].
  apply bind_oof; [apply mapM_oof; intros; now apply add_element_oof|intros body].
  apply bind_oof; [|discriminate].
  destruct (closed && _); [|discriminate].
  apply bind_oof; [now apply add_element_oof|discriminate].
Qed.
Lemma geometry_eval_oof E g frame : geometry_eval E g frame <> Oof.
Proof.
  destruct g; simpl; try discriminate.
  - unfold a_spline_eval. destruct (frames_and_weight _ _) as [[[[[ix0 ix1] t] e] h]|]; [|discriminate].
    destruct (nth_error (asp_values s) ix0), (nth_error (asp_values s) ix1); try discriminate.
    apply to_path_oof. intros i. repeat (apply bind_oof; [apply index_oof|intros ?]). discriminate.
  - unfold a_star_eval.
    destruct (Z.eqb _ 0); [discriminate|].
    destruct (negb (asr_polygon s)); destruct (negb (star_cap_ok _)); try discriminate;
      destruct (star_vertices _ _ _ _ _ _ _ _ _ _ _); discriminate.
Qed.
Lemma slice_oof {A} (l : list A) a b : slice l a b <> Oof.
Proof. unfold slice. destruct (_ && _); discriminate. Qed.
Lemma slice_from_oof {A} (l : list A) a : slice_from l a <> Oof.
Proof. unfold slice_from. destruct (_ <=? _); discriminate. Qed.
Lemma slice_to_oof {A} (l : list A) a : slice_to l a <> Oof.
Proof. unfold slice_to. destruct (_ <=? _); discriminate. Qed.
Lemma usub_oof a b : usub a b <> Oof.
Proof. unfold usub. destruct (_ <=? _); discriminate. Qed.
Lemma collect_segments_oof els : collect_segments els <> Oof.
Proof.
  unfold collect_segments, path_segments. destruct (bezpath_ok els); [|discriminate].
  destruct els as [|e els]; [discriminate|]. destruct (el_end e); discriminate.
Qed.
Lemma trim_geoms_oof E f s els gs : forall te, trim_geoms E f s els gs te <> Oof.
Proof.
  induction gs as [|g gs IH]; intros te; simpl; [discriminate|].
  apply bind_oof; [apply slice_oof|intros p]. apply bind_oof.
  { unfold trim_path. apply bind_oof; [apply collect_segments_oof|intros sg].
    destruct (_ || _); discriminate. }
  intros tr. apply bind_oof; [apply IH|]. intros [a b]. discriminate.
Qed.
Lemma copy_prefix_oof els gs : forall te, copy_prefix els gs te <> Oof.
Proof.
  induction gs as [|g gs IH]; intros te; simpl; [discriminate|].
  apply bind_oof; [apply slice_oof|intros p]. apply IH.
Qed.
Lemma fold_shapes_oof {S} (f : shape -> S -> res S) shs : forall b,
  (forall s b, In s shs -> f s b <> Oof) -> fold_shapes f shs b <> Oof.
Proof.
  induction shs as [|s shs IH]; intros b H; simpl; [discriminate|].
  apply bind_oof; [apply H; now left|]. intros b'. apply IH. intros; apply H; now right.
Qed.

(** Induction on shape trees. *)
Section ShapeInd.
  Variable P : shape -> Prop.
  Hypothesis HGroup : forall shs t, Forall P shs -> P (ShGroup shs t).
  Hypothesis HGeo : forall g, P (ShGeometry g).
  Hypothesis HDraw : forall d, P (ShDraw d).
  Hypothesis HRep : forall r, P (ShRepeater r).
  Hypothesis HTrim : forall t, P (ShTrim t).
  Fixpoint shape_ind' (s : shape) : P s :=
    match s with
    | ShGroup shs t =>
        HGroup shs t ((fix go (l : list shape) : Forall P l :=
                         match l with [] => Forall_nil P | x :: l => Forall_cons x (shape_ind' x) (go l) end) shs)
    | ShGeometry g => HGeo g
    | ShDraw d => HDraw d
    | ShRepeater r => HRep r
    | ShTrim t => HTrim t
    end.
End ShapeInd.

Lemma render_shape_oof E sh : forall tf alpha frame gs ds b,
  render_shape E tf alpha frame gs ds sh b <> Oof.
Proof.
  induction sh using shape_ind'; intros; simpl.
  - apply fold_shapes_oof. intros s b0 Hin. rewrite Forall_forall in H. now apply H.
  - unfold push_geometry. apply bind_oof; [apply geometry_eval_oof|discriminate].
  - discriminate.
  - unfold batch_repeat. apply bind_oof; [apply slice_from_oof|intros tl].
    apply bind_oof; [apply slice_from_oof|intros dt].
    apply bind_oof; [|discriminate]. apply mapM_oof. intros i. unfold repeat_draws_at.
    destruct (fleb _ _); [discriminate|]. apply mapM_oof. intros d. unfold repeat_draw.
    repeat (apply bind_oof; [apply usub_oof|intros ?]). discriminate.
  - unfold apply_trim. destruct (trim_normalized _) as [[f s]|].
    + destruct (trim_is_full f s); [discriminate|].
      apply bind_oof; [apply slice_to_oof|intros p].
      apply bind_oof; [apply copy_prefix_oof|intros te].
      apply bind_oof; [apply slice_from_oof|intros tl].
      apply bind_oof; [apply trim_geoms_oof|intros [a b']; discriminate].
    + apply bind_oof; [apply slice_from_oof|discriminate].
Qed.
Lemma render_shapes_oof E shs tf alpha frame b : render_shapes E shs tf alpha frame b <> Oof.
Proof. apply fold_shapes_oof. intros; apply render_shape_oof. Qed.
Lemma batch_render_oof E b : batch_render E b <> Oof.
Proof.
  unfold batch_render. apply bind_oof; [|discriminate]. apply mapM_oof. intros d.
  unfold render_draw. apply bind_oof; [apply slice_oof|intros gs]. apply mapM_oof. intros g.
  apply bind_oof; [apply slice_oof|discriminate].
Qed.

Lemma mbind_oof {A B} (m : M A) (k : A -> M B) r :
  r_out (mbind m k r) = Oof -> r_out (m r) = Oof \/ exists a st, r_out (k a st) = Oof.
Proof.
  unfold mbind. destruct (m r) as [o st tr]; simpl. destruct o; simpl; auto; [|discriminate].
  intros H. right. eauto.
Qed.
Lemma forM_oof {A} (l : list A) (f : A -> M unit) r :
  r_out (forM l f r) = Oof -> exists x st, In x l /\ r_out (f x st) = Oof.
Proof.
  revert r. induction l as [|x l IH]; intros r; simpl; [discriminate|].
  intros H. apply mbind_oof in H as [H|(a & st & H)].
  - exists x, r. auto.
  - apply IH in H as (y & st' & Hin & H). exists y, st'. auto.
Qed.

(** Paths of the reference relation. *)
Fixpoint is_path (c : composition) (p : pos) (ps : list pos) : Prop :=
  match ps with [] => True | q :: ps => refers c p q /\ is_path c q ps end.

Lemma render_layer_oof E fuel : forall c s i ly idx tf alpha frame r,
  layer_at c (s, i) = Some ly ->
  r_out (render_layer E (S fuel) c (scope_layers c s) ly idx tf alpha frame r) = Oof ->
  exists q, refers c (s, i) q /\ exists m idx' tf' alpha' frame' r',
    layer_at c q = Some m /\
    r_out (render_layer E fuel c (scope_layers c (fst q)) m idx' tf' alpha' frame' r') = Oof.
Proof.
  intros c s i ly idx tf alpha frame r Hat H. cbn [render_layer] in H.
  destruct (negb (in_window ly frame)); [discriminate|].
  apply mbind_oof in H as [H|(_ & st & H)]; [discriminate|].
  apply mbind_oof in H as [H|(_ & st1 & H)].
  { destruct (ly_mask_layer ly) as [[mode mi]|] eqn:Em; [|discriminate].
    apply mbind_oof in H as [H|(_ & st1 & H)]; [discriminate|].
    apply mbind_oof in H as [H|(_ & st2 & H)]; [|discriminate].
    destruct (nth_error (scope_layers c s) mi) as [m|] eqn:En; [|discriminate].
    exists (s, mi). split; [econstructor; eauto|]. repeat eexists; eauto. }
  apply mbind_oof in H as [H|(_ & st2 & H)].
  { apply forM_oof in H as (m & st2 & _ & H). unfold render_mask in H.
    pose proof (geometry_eval_oof E (mk_geometry m) frame).
    destruct (geometry_eval E (mk_geometry m) frame); simpl in H; congruence. }
  apply mbind_oof in H as [H|(_ & st3 & H)].
  { destruct (ly_content ly) as [|name remap|shapes] eqn:Ec; [discriminate| |].
    - destruct (find_asset c name) as [ls|] eqn:Ef; [|discriminate].
      apply forM_oof in H as (al & st3 & Hin & H).
      destruct (ly_is_mask al); [discriminate|].
      apply in_rev, In_nth_error in Hin as (j & Hj).
      exists (Some name, j).
      assert (layer_at c (Some name, j) = Some al) by (unfold layer_at; simpl; now rewrite Ef).
      split; [eapply ref_instance; eauto|]. simpl. rewrite Ef. repeat eexists; eauto.
    - unfold render_content_shapes in H.
      pose proof (render_shapes_oof E shapes (compute_transform E (scope_layers c s) ly tf frame)
         (fdiv (fmul alpha (eval E (ly_opacity ly) frame)) f100) frame (rn_batch st2)).
      destruct (render_shapes _ _ _ _ _ _); simpl in H; try congruence.
      pose proof (batch_render_oof E a). destruct (batch_render E a); simpl in H; congruence. }
  apply mbind_oof in H as [H|(_ & st4 & H)]; discriminate.
Qed.

Lemma render_layer_oof_path E fuel : forall c s i ly idx tf alpha frame r,
  layer_at c (s, i) = Some ly ->
  r_out (render_layer E fuel c (scope_layers c s) ly idx tf alpha frame r) = Oof ->
  exists ps, is_path c (s, i) ps /\ List.length ps = fuel.
Proof.
  induction fuel as [|fuel IH]; intros c s i ly idx tf alpha frame r Hat H.
  - exists []. simpl. auto.
  - apply render_layer_oof with (i := i) in H; [|exact Hat].
    destruct H as ([s' j] & Hr & m & idx' & tf' & alpha' & frame' & r' & Hm & H).
    apply IH with (i := j) in H; [|exact Hm]. destruct H as (ps & Hp & Hl).
    exists ((s', j) :: ps). simpl. auto.
Qed.

(** All positions of a composition. *)
Definition all_pos (c : composition) : list pos :=
  map (fun i => (None, i)) (seq 0 (List.length (co_layers c))) ++
  flat_map (fun a => map (fun i => (Some (fst a), i)) (seq 0 (List.length (snd a)))) (co_assets c).
Definition layer_count (c : composition) : nat :=
  List.length (co_layers c) + fold_right (fun a n => List.length (snd a) + n) 0 (co_assets c).
Lemma all_pos_length c : List.length (all_pos c) = layer_count c.
Proof.
  unfold all_pos, layer_count. rewrite app_length, map_length, seq_length. f_equal.
  induction (co_assets c) as [|a l IH]; simpl; [reflexivity|].
  now rewrite app_length, map_length, seq_length, IH.
Qed.
Lemma layer_at_all_pos c p ly : layer_at c p = Some ly -> In p (all_pos c).
Proof.
  destruct p as [s i]. unfold layer_at, all_pos. simpl. intros H. apply in_app_iff.
  assert (i < List.length (scope_layers c s)) by (apply nth_error_Some; congruence).
  destruct s as [n|]; simpl in *.
  - right. unfold find_asset in *. destruct (find _ (co_assets c)) as [[k ls]|] eqn:Ef.
    + apply find_some in Ef as [Hin Heq]. simpl in Heq. apply String.eqb_eq in Heq. subst k.
      apply in_flat_map. exists (n, ls). split; auto. apply in_map_iff. exists i. split; auto.
      apply in_seq. simpl. lia.
    + simpl in *. lia.
  - left. apply in_map_iff. exists i. split; auto. apply in_seq. lia.
Qed.
Lemma refers_target c p q : refers c p q -> exists m, layer_at c q = Some m.
Proof. destruct 1; eauto. Qed.
Lemma is_path_incl c ps : forall p, is_path c p ps -> incl ps (all_pos c).
Proof.
  induction ps as [|q ps IH]; intros p; simpl; [intros _ x []|].
  intros [Hr Hp] x [->|Hx]; [|eapply IH; eauto].
  apply refers_target in Hr as (m & Hm). eapply layer_at_all_pos; eauto.
Qed.
Lemma is_path_reach c ps : forall p q, is_path c p ps -> In q ps -> clos_trans pos (refers c) p q.
Proof.
  induction ps as [|x ps IH]; intros p q; simpl; [tauto|].
  intros [Hr Hp] [->|Hin]; [now apply t_step|].
  eapply t_trans; [apply t_step; eauto|]. eauto.
Qed.
Definition pos_eq_dec (p q : pos) : {p = q} + {p <> q}.
Proof. repeat decide equality. Defined.
Lemma path_acyclic_nodup c ps : acyclic c -> forall p, is_path c p ps -> NoDup (p :: ps).
Proof.
  intros Ha. induction ps as [|q ps IH]; intros p H.
  - constructor; auto. constructor.
  - constructor.
    + intros Hin. apply (Ha p). eapply is_path_reach; eauto.
    + destruct H as [_ H]. now apply IH.
Qed.
Lemma acyclic_path_bound c p ly ps :
  acyclic c -> layer_at c p = Some ly -> is_path c p ps -> List.length ps < layer_count c.
Proof.
  intros Ha Hp H. rewrite <- all_pos_length.
  change (List.length (p :: ps) <= List.length (all_pos c)).
  apply NoDup_incl_length; [eapply path_acyclic_nodup; eauto|].
  intros x [->|Hx]; [eapply layer_at_all_pos; eauto|eapply is_path_incl; eauto].
Qed.
Lemma render_layer_acyclic E c s i ly idx tf alpha frame r :
  acyclic c -> layer_at c (s, i) = Some ly ->
  r_out (render_layer E (layer_count c) c (scope_layers c s) ly idx tf alpha frame r) <> Oof.
Proof.
  intros Ha Hat H. apply render_layer_oof_path with (i := i) in H; auto.
  destruct H as (ps & Hp & Hl). pose proof (acyclic_path_bound c _ _ ps Ha Hat Hp). lia.
Qed.

Lemma enumerate_nth {A} (l : list A) i x :
  In (i, x) (enumerate l) -> nth_error l i = Some x.
Proof.
  unfold enumerate. intros H. apply In_nth_error in H as (n & H).
  assert (Hlen : List.length (seq 0 (List.length l)) = List.length l) by apply seq_length.
  revert H. generalize (List.length l) at 1 as k. clear Hlen.
  assert (G : forall (l : list A) a k n, nth_error (combine (seq a k) l) n = Some (i, x) ->
             i = a + n /\ nth_error l n = Some x).
  { clear. intros l. induction l as [|y l IH]; intros a k n H.
    - destruct (seq a k); destruct n; discriminate.
    - destruct k; [destruct n; discriminate|]. destruct n; simpl in *.
      + injection H as -> ->. split; auto. 
      + apply IH in H as [-> H]. split; [lia|auto]. }
  intros k H. apply G in H as [-> H]. exact H.
Qed.

Lemma append_acyclic E c frame tf alpha r :
  acyclic c -> r_out (append E (layer_count c) c frame tf alpha r) <> Oof.
Proof.
  intros Ha H. rewrite append_unfold in H.
  apply mbind_oof in H as [H|(_ & st & H)]; [discriminate|].
  apply mbind_oof in H as [H|(_ & st1 & H)]; [|discriminate].
  apply forM_oof in H as ([i ly] & st1 & Hin & H).
  destruct (ly_is_mask ly); [discriminate|].
  apply in_rev, enumerate_nth in Hin.
  now apply (render_layer_acyclic E c None i ly) in H.
Qed.
