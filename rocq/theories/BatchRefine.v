(** The batch code computes the pictures of BatchSpec.v. *)
From Coq Require Import ZArith Bool List Arith String Lia.
From Flocq Require Import Core BinarySingleNaN.
From Verif Require Import F64 Kurbo Value Animated Batch Render RenderFacts BatchFacts BatchSpec.
Import ListNotations.

(** ** List algebra *)
Lemma mapM_app A B (f : A -> res B) l1 l2 :
  mapM f (l1 ++ l2) = bind (mapM f l1) (fun a => bind (mapM f l2) (fun b => Ok (a ++ b))).
Proof.
  induction l1 as [|x l1 IH]; simpl; [destruct (mapM f l2); reflexivity|].
  destruct (f x); simpl; auto. rewrite IH. destruct (mapM f l1); simpl; auto.
  destruct (mapM f l2); reflexivity.
Qed.
Lemma mapM_length A B (f : A -> res B) l l' : mapM f l = Ok l' -> List.length l' = List.length l.
Proof.
  revert l'. induction l as [|x l IH]; simpl; intros l'; [intros [= <-]; reflexivity|].
  destruct (f x); simpl; try discriminate. destruct (mapM f l); simpl; try discriminate.
  intros [= <-]. simpl. f_equal. now apply IH.
Qed.
Lemma mapM_firstn A B (f : A -> res B) n l l' : mapM f l = Ok l' -> mapM f (firstn n l) = Ok (firstn n l').
Proof.
  revert n l'. induction l as [|x l IH]; simpl; intros n l'.
  - intros [= <-]. now rewrite !firstn_nil.
  - destruct (f x) eqn:Ef; simpl; try discriminate. destruct (mapM f l) eqn:El; simpl; try discriminate.
    intros [= <-]. destruct n; simpl; [reflexivity|]. rewrite Ef. simpl. now rewrite (IH n _ eq_refl).
Qed.
Lemma mapM_skipn A B (f : A -> res B) n l l' : mapM f l = Ok l' -> mapM f (skipn n l) = Ok (skipn n l').
Proof.
  revert n l'. induction l as [|x l IH]; simpl; intros n l'.
  - intros [= <-]. now rewrite !skipn_nil.
  - destruct (f x) eqn:Ef; simpl; try discriminate. destruct (mapM f l) eqn:El; simpl; try discriminate.
    intros [= <-]. destruct n; simpl; [rewrite Ef; simpl; now rewrite El|]. now rewrite (IH n _ eq_refl).
Qed.
Lemma flat_map_const_length A B (f : A -> list B) n l :
  (forall x, List.length (f x) = n) -> List.length (flat_map f l) = List.length l * n.
Proof. intros H. induction l; simpl; auto. rewrite app_length, IHl, H. reflexivity. Qed.
Lemma flat_map_skipn A B (f : A -> list B) n k l : (forall x, List.length (f x) = n) ->
  skipn (k * n) (flat_map f l) = flat_map f (skipn k l).
Proof.
  intros H. revert l. induction k as [|k IH]; intros l; [reflexivity|].
  destruct l as [|x l]; simpl; [now rewrite skipn_nil|].
  rewrite skipn_app, H. rewrite skipn_all2 by (rewrite H; lia). simpl.
  replace (n + k * n - n) with (k * n) by lia. apply IH.
Qed.
Lemma flat_map_firstn A B (f : A -> list B) n k l : (forall x, List.length (f x) = n) ->
  firstn (k * n) (flat_map f l) = flat_map f (firstn k l).
Proof.
  intros H. revert l. induction k as [|k IH]; intros l; [reflexivity|].
  destruct l as [|x l]; simpl; [now rewrite firstn_nil|].
  rewrite firstn_app, H. rewrite firstn_all2 by (rewrite H; lia). f_equal.
  replace (n + k * n - n) with (k * n) by lia. apply IH.
Qed.
Lemma join_last_app l p t els : join_last (l ++ [(p, t)]) els = l ++ [(p ++ els, t)].
Proof.
  induction l as [|[q u] l IH]; [reflexivity|]. simpl. rewrite IH. destruct l; reflexivity.
Qed.
Lemma last_transform_app l p t : last_transform (l ++ [(p, t)]) = Some t.
Proof. unfold last_transform. now rewrite rev_app_distr. Qed.
Lemma map_combine_snd A B (a : list A) (b : list B) : List.length a = List.length b -> map snd (combine a b) = b.
Proof. revert b; induction a; intros [|]; simpl; try discriminate; auto. intros [= H]. f_equal; auto. Qed.

(** ** The relation *)
Definition style_dd (d : draw_data) : style := mkStyle (dd_stroke d) (dd_brush d) (dd_alpha d).
(** [sd] is the draw [d] whose ranges count from [gs]. *)
Definition draw_rel (gs : nat) (os : list outline) (d : draw_data) (sd : style * list outline) : Prop :=
  style_dd d = fst sd /\
  snd sd = firstn (dd_end d - dd_start d) (skipn (dd_start d - gs) os).
(** State of the last geometry. *)
Definition pend_rel (gs : nat) (b : batch) (p : pic) (s : pending) : Prop :=
  match s with
  | None => b_drawn b = List.length (b_geoms b) /\ pc_open p = false
  | Some (a, d, c) =>
      b_drawn b < List.length (b_geoms b) /\
      (exists l g, b_geoms b = l ++ [g] /\ gd_transform g = a /\
                   (c = false -> gd_end g = List.length (b_elements b))) /\
      (d = 0 -> gs < List.length (b_geoms b) /\ pc_open p = true) /\
      (0 < d -> gs = List.length (b_geoms b) /\ pc_open p = false)
  end.
(** How the state relates to the one at the start of the group. *)
Definition entry_rel (s0 : pending) (p : pic) (s : pending) : Prop :=
  match s with
  | None => pc_used p = true \/ s0 = None
  | Some (_, 0, _) => True
  | Some (a, S d, _) => pc_used p = false /\ exists c0, s0 = Some (a, S d, c0)
  end.
Record rel (gs ds : nat) (s0 : pending) (b : batch) (p : pic) (s : pending) : Prop := mkRel {
  rl_inv : binv gs ds b;
  rl_drawn : Forall (fun d => dd_end d <= b_drawn b) (b_draws b);
  rl_outlines : map (geo_of (b_elements b)) (skipn gs (b_geoms b)) = pc_outlines p;
  rl_draws : Forall2 (draw_rel gs (pc_outlines p)) (skipn ds (b_draws b)) (pc_draws p);
  rl_pend : pend_rel gs b p s;
  rl_entry : entry_rel s0 p s }.
(** Nothing outside the group changes. *)
Definition frame_eq (gs ds : nat) (b b' : batch) : Prop :=
  map (geo_of (b_elements b')) (firstn gs (b_geoms b')) = map (geo_of (b_elements b)) (firstn gs (b_geoms b)) /\
  firstn ds (b_draws b') = firstn ds (b_draws b).
Lemma frame_eq_refl gs ds b : frame_eq gs ds b b.
Proof. split; reflexivity. Qed.
Lemma frame_eq_trans gs ds b1 b2 b3 : frame_eq gs ds b1 b2 -> frame_eq gs ds b2 b3 -> frame_eq gs ds b1 b3.
Proof. intros [A B] [C D]. split; congruence. Qed.

Lemma geoms_grow els new l : Forall (geom_ok els) l ->
  map (geo_of (els ++ new)) l = map (geo_of els) l.
Proof.
  induction 1; simpl; [reflexivity|]. rewrite IHForall. unfold geo_of at 1. now rewrite path_of_grow.
Qed.
Lemma Forall2_impl_in A B (P Q : A -> B -> Prop) l l' :
  (forall x y, In x l -> In y l' -> P x y -> Q x y) -> Forall2 P l l' -> Forall2 Q l l'.
Proof.
  intros H F. induction F; constructor; auto with datatypes.
Qed.
Lemma skipn_len_app A n (l1 l2 : list A) : n = List.length l1 -> skipn n (l1 ++ l2) = l2.
Proof. intros ->. now rewrite skipn_app, skipn_all, Nat.sub_diag. Qed.
Lemma firstn_len_app A n (l1 l2 : list A) : n = List.length l1 -> firstn n (l1 ++ l2) = l1.
Proof. intros ->. now rewrite firstn_app, firstn_all, Nat.sub_diag, app_nil_r. Qed.
(** A slice that ends inside the first part. *)
Lemma slice_app_l A s n (l1 l2 : list A) : s + n <= List.length l1 ->
  firstn n (skipn s (l1 ++ l2)) = firstn n (skipn s l1).
Proof.
  intros H. rewrite skipn_app, firstn_app, skipn_length.
  replace (n - (List.length l1 - s)) with 0 by lia. now rewrite app_nil_r.
Qed.
Lemma slice_app_r A s n (l1 l2 : list A) : List.length l1 <= s ->
  firstn n (skipn s (l1 ++ l2)) = firstn n (skipn (s - List.length l1) l2).
Proof. intros H. rewrite skipn_app, skipn_all2 by lia. reflexivity. Qed.

Lemma rel_outlines_length gs ds s0 b p s : rel gs ds s0 b p s ->
  List.length (pc_outlines p) = List.length (b_geoms b) - gs.
Proof. intros []. rewrite <- rl_outlines0, map_length, skipn_length. reflexivity. Qed.
Lemma rel_draw_bounds gs ds s0 b p s d : rel gs ds s0 b p s -> In d (skipn ds (b_draws b)) ->
  gs <= dd_start d <= dd_end d /\ dd_end d <= b_drawn b <= List.length (b_geoms b).
Proof.
  intros [[] ? ? ? ? ?] Hin. rewrite Forall_forall in *. assert (In d (b_draws b)) by now apply in_skipn in Hin.
  specialize (bi_after d Hin). specialize (bi_draws d H). specialize (rl_drawn0 d H). simpl in *. lia.
Qed.

(** ** Adding a path *)
Lemma refine_path E gs ds s0 b p s tf frame g els s' :
  geometry_eval E g frame = Ok els -> ok_path els ->
  rel gs ds s0 b p s -> advance s (TPath tf) = Some s' ->
  exists b', push_geometry E b g tf frame = Ok b' /\
    rel gs ds s0 b' (add_path p tf els) s' /\ frame_eq gs ds b b'.
Proof.
  intros Hg Hp R A. pose proof R as [I Dr Os Ds Pd En]. pose proof I as [].
  destruct (push_geometry_inv E gs ds b g tf frame els Hg Hp I) as (b' & H1 & I' & Dd & El & Dn & Gm).
  exists b'. split; [exact H1|].
  pose proof (rel_outlines_length _ _ _ _ _ _ R) as Lo.
  assert (Gr : Forall (geom_ok (b_elements b)) (firstn gs (b_geoms b)) /\
               Forall (geom_ok (b_elements b)) (skipn gs (b_geoms b))).
  { apply Forall_app. now rewrite firstn_skipn. }
  destruct Gr as [Gr1 Gr2].
  destruct (can_merge b tf) eqn:Em.
  - (* merged *)
    unfold can_merge in Em. apply andb_prop in Em as [E2 E3]. apply Nat.ltb_lt in E2.
    destruct s as [[[a d] c]|]; cbn [pend_rel] in Pd; [|lia].
    destruct Pd as (_ & (l & gl & Gl & Ta & Ec) & P0 & P1).
    rewrite Gl, last_opt_app in E3. rewrite Ta in E3. cbn [advance] in A. rewrite E3 in A.
    destruct d as [|d]; [|discriminate]. destruct c; [discriminate|]. cbn in A. injection A as <-.
    specialize (Ec eq_refl). destruct (P0 eq_refl) as [Lgs Op].
    rewrite Gl, set_last_end_app in Gm.
    rewrite Gl, app_length in Lgs. simpl in Lgs.
    assert (Sk : forall x : geom_data, skipn gs (l ++ [x]) = skipn gs l ++ [x]).
    { intros x. rewrite skipn_app. replace (gs - List.length l) with 0 by lia. reflexivity. }
    assert (Fi : forall x : geom_data, firstn gs (l ++ [x]) = firstn gs l).
    { intros x. rewrite firstn_app. replace (gs - List.length l) with 0 by lia. apply app_nil_r. }
    assert (Gok : geom_ok (b_elements b) gl).
    { rewrite Gl in bi_geoms. apply Forall_app in bi_geoms as [_ X]. now inversion X. }
    rewrite Gl in Gr1, Gr2, Os. rewrite Fi in Gr1. rewrite Sk in Gr2, Os.
    apply Forall_app in Gr2 as [Gr2 _]. rewrite map_app in Os. cbn [map] in Os.
    change (geo_of (b_elements b) gl) with (path_of (b_elements b) gl, gd_transform gl) in Os.
    set (gl' := mkGeom (gd_start gl) (List.length (b_elements b ++ els)) (gd_transform gl)) in *.
    assert (G' : geo_of (b_elements b ++ els) gl' = (path_of (b_elements b) gl ++ els, gd_transform gl)).
    { unfold geo_of, path_of, gl'. cbn [gd_start gd_end gd_transform]. f_equal.
      destruct Gok as [K1 K2 _]. rewrite Ec in *.
      rewrite skipn_app. replace (gd_start gl - List.length (b_elements b)) with 0 by lia. cbn [skipn].
      rewrite !firstn_all2; auto; rewrite ?app_length, ?skipn_length; lia. }
    assert (Jn : joins p tf = true).
    { unfold joins. rewrite Op, <- Os, last_transform_app, Ta. exact E3. }
    split.
    + constructor; auto.
      * rewrite Dd, Dn. auto.
      * rewrite Gm, El, Sk, map_app. cbn [map]. rewrite G', geoms_grow by auto.
        unfold add_path. rewrite Jn. cbn [pc_outlines]. rewrite <- Os, join_last_app. reflexivity.
      * rewrite Dd. cbn [add_path pc_draws pc_outlines]. unfold add_path. rewrite Jn. cbn [pc_draws pc_outlines].
        eapply Forall2_impl_in; [|exact Ds]. intros d sd Hd _ [Q1 Q2]. split; auto. rewrite Q2.
        rewrite <- Os, join_last_app. unfold outline.
        pose proof (rel_draw_bounds _ _ _ _ _ _ _ R Hd) as B.
        rewrite Gl, app_length in B, E2. simpl in B, E2.
        rewrite !slice_app_l; auto; rewrite map_length, skipn_length; lia.
      * cbn [pend_rel]. rewrite Dn, Gm, El.
        assert (L : forall x : geom_data, List.length (l ++ [x]) = List.length (b_geoms b)) by
          (intros; rewrite Gl, !app_length; reflexivity).
        rewrite L. split; [exact E2|]. split.
        -- exists l, gl'. repeat split; auto.
        -- split; [intros _; split; [rewrite Gl, app_length; simpl; lia|reflexivity]|lia].
    + split; [|now rewrite Dd]. rewrite Gm, El, Gl, !Fi. now apply geoms_grow.
  - (* a new outline *)
    assert (A' : s' = Some (tf, 0, false)).
    { destruct s as [[[a d] c]|]; cbn [advance] in A; [|now injection A as <-].
      destruct (affine_eqb a tf) eqn:Ea; [|now injection A as <-].
      exfalso. destruct Pd as (P0 & (l & gl & Gl & Ta & Ec) & _).
      unfold can_merge in Em. rewrite Gl, last_opt_app, Ta, Ea, andb_true_r in Em.
      apply Nat.ltb_ge in Em. rewrite Gl in P0. lia. }
    assert (Jn : joins p tf = false).
    { unfold joins. destruct (pc_open p) eqn:Op; [|reflexivity]. simpl.
      destruct s as [[[a d] c]|]; cbn [pend_rel] in Pd; [|destruct Pd; congruence].
      destruct Pd as (P0 & (l & gl & Gl & Ta & Ec) & P1 & P2).
      destruct d as [|d]; [|destruct P2; [lia|congruence]]. destruct (P1 eq_refl) as [Lgs _].
      rewrite <- Os, Gl, skipn_app. rewrite Gl, app_length in Lgs. simpl in Lgs.
      replace (gs - List.length l) with 0 by lia. cbn [skipn]. rewrite map_app. cbn [map].
      unfold geo_of at 2. rewrite last_transform_app.
      unfold can_merge in Em. rewrite Gl, last_opt_app in Em.
      rewrite Gl in P0. apply Nat.ltb_lt in P0. rewrite P0 in Em. simpl in Em. congruence. }
    subst s'. split.
    + constructor; auto.
      * rewrite Dd, Dn. auto.
      * rewrite Gm, El, skipn_app. replace (gs - List.length (b_geoms b)) with 0 by lia. cbn [skipn].
        rewrite map_app, geoms_grow by auto. unfold add_path. rewrite Jn. cbn [pc_outlines map].
        rewrite Os. do 2 f_equal. unfold geo_of, path_of. cbn [gd_start gd_end gd_transform]. f_equal.
        rewrite app_length, skipn_len_app by reflexivity.
        replace (List.length (b_elements b) + List.length els - List.length (b_elements b))
          with (List.length els) by lia. now rewrite firstn_all.
      * rewrite Dd. unfold add_path. rewrite Jn. cbn [pc_draws pc_outlines].
        eapply Forall2_impl_in; [|exact Ds]. intros d sd Hd _ [Q1 Q2]. split; auto. rewrite Q2.
        pose proof (rel_draw_bounds _ _ _ _ _ _ _ R Hd) as B. unfold outline in *.
        rewrite slice_app_l; auto. lia.
      * cbn [pend_rel]. rewrite Dn, Gm, El. rewrite !app_length. cbn [List.length].
        split; [lia|]. split.
        -- eexists _, _. split; [reflexivity|]. cbn [gd_transform gd_end]. split; auto.
        -- split; [intros _; split; [lia|reflexivity]|lia].
      * exact Logic.I.
    + split; [|now rewrite Dd]. rewrite Gm, El, firstn_app.
      replace (gs - List.length (b_geoms b)) with 0 by lia. cbn [firstn]. rewrite app_nil_r.
      now apply geoms_grow.
Qed.

(** ** Draws *)
Lemma refine_draw E gs ds s0 b p s d alpha frame :
  rel gs ds s0 b p s ->
  let b' := push_draw E b d alpha gs frame in
  rel gs ds s0 b'
    (mkPic (pc_outlines p) (pc_draws p ++ [(style_of E d alpha frame, pc_outlines p)]) false true) None /\
  frame_eq gs ds b b'.
Proof.
  intros R. pose proof R as [I Dr Os Ds Pd En]. pose proof (rel_outlines_length _ _ _ _ _ _ R) as Lo.
  pose proof (push_draw_inv E gs ds b d alpha frame I) as I'. destruct I.
  cbn zeta. split.
  - constructor; auto.
    + simpl. apply Forall_app. split; [|constructor; auto].
      eapply Forall_impl; [|exact Dr]. simpl. lia.
    + simpl. rewrite skipn_app. replace (ds - List.length (b_draws b)) with 0 by lia.
      apply Forall2_app; [exact Ds|]. constructor; [|constructor].
      split; [reflexivity|]. cbn [snd draw_new dd_start dd_end].
      rewrite Nat.sub_diag. cbn [skipn]. rewrite firstn_all2; [reflexivity|]. unfold outline in *. lia.
    + simpl. auto.
    + left. reflexivity.
  - split; [reflexivity|]. simpl. rewrite firstn_app.
    replace (ds - List.length (b_draws b)) with 0 by lia. apply app_nil_r.
Qed.

(** ** Repeaters *)
Lemma repeat_geom_copies E r els g : map (geo_of els) (repeat_geom E r g) = copies E r (geo_of els g).
Proof. unfold repeat_geom, copies. rewrite map_map. reflexivity. Qed.
Lemma copies_length E r o : List.length (copies E r o) = rp_copies r.
Proof. unfold copies. now rewrite map_length, seq_length. Qed.
Lemma flat_map_repeat_geom E r els l :
  map (geo_of els) (flat_map (repeat_geom E r) l) = flat_map (copies E r) (map (geo_of els) l).
Proof.
  induction l as [|g l IH]; [reflexivity|]. simpl. now rewrite map_app, repeat_geom_copies, IH.
Qed.
Lemma refine_repeat E gs ds s0 b p s r :
  rel gs ds s0 b p s ->
  exists b', batch_repeat E b r gs ds = Ok b' /\
    rel gs ds s0 b' (repeat_pic E r p) None /\ frame_eq gs ds b b'.
Proof.
  intros R. pose proof R as [I Dr Os Ds Pd En]. pose proof (rel_outlines_length _ _ _ _ _ _ R) as Lo.
  rewrite (batch_repeat_eq E gs ds b r I).
  eexists. split; [reflexivity|].
  match goal with |- rel _ _ _ ?x _ _ /\ _ => set (b' := x) end.
  destruct (batch_repeat_inv E gs ds b r b' I (batch_repeat_eq E gs ds b r I)) as [I' F'].
  destruct I.
  assert (Lg : List.length (firstn gs (b_geoms b)) = gs) by (rewrite firstn_length; lia).
  assert (Ld : List.length (firstn ds (b_draws b)) = ds) by (rewrite firstn_length; lia).
  assert (Os' : map (geo_of (b_elements b')) (skipn gs (b_geoms b')) = flat_map (copies E r) (pc_outlines p)).
  { unfold b'. cbn [b_elements b_geoms]. rewrite skipn_len_app by auto. now rewrite flat_map_repeat_geom, Os. }
  split.
  - constructor; auto.
    + eapply Forall_impl; [|apply (BatchFacts.bi_draws _ _ _ I')]. simpl. lia.
    + unfold b' at 1. cbn [b_draws]. rewrite skipn_len_app by auto.
      unfold repeat_pic. cbn [pc_draws pc_outlines]. unfold repeated_draws.
      assert (Hin : forall d, In d (skipn ds (b_draws b)) ->
         gs <= dd_start d <= dd_end d /\ dd_end d <= b_drawn b <= List.length (b_geoms b)) by
        (intros d; apply (rel_draw_bounds _ _ _ _ _ _ _ R)).
      clear - Ds Hin. induction (seq 0 (rp_copies r)) as [|i l IH]; simpl; [constructor|].
      apply Forall2_app; [|exact IH]. change (copy_alpha r i) with (repeat_alpha r i).
      destruct (fleb _ _); [constructor|].
      revert Hin. generalize (skipn ds (b_draws b)) (pc_draws p) Ds. clear.
      intros l l' F Hin. induction F as [|d sd l l' [Q1 Q2] F IH]; simpl; [constructor|].
      constructor; [|apply IH; intros; apply Hin; simpl; auto].
      split; cbn [fst snd].
      * unfold style_dd, repeated_draw in *. rewrite <- Q1. reflexivity.
      * rewrite Q2. unfold repeated_draw. cbn [dd_start dd_end].
        destruct (Hin d) as [B _]; [simpl; auto|].
        rewrite <- flat_map_firstn with (n := rp_copies r) by apply copies_length.
        rewrite <- flat_map_skipn with (n := rp_copies r) by apply copies_length.
        f_equal; [nia|]. f_equal. nia.
    + simpl. auto.
    + left. reflexivity.
  - split; [|exact F']. unfold b'. cbn [b_geoms b_elements]. now rewrite firstn_len_app by auto.
Qed.

(** ** Trims *)
Lemma trim_outline_combine E t f s els l paths :
  trim_normalized t = Some (f, s) -> trim_is_full f s = false ->
  mapM (fun g => trim_path E f s (path_of els g)) l = Ok paths ->
  mapM (trim_outline E t) (map (geo_of els) l) = Ok (combine paths (map gd_transform l)).
Proof.
  intros Hn Hf. revert paths. induction l as [|g l IH]; intros paths; simpl; [intros [= <-]; reflexivity|].
  unfold trim_outline at 1. rewrite Hn, Hf. cbn [geo_of fst snd].
  destruct (trim_path E f s (path_of els g)); simpl; try discriminate.
  destruct (mapM _ l) eqn:El; simpl; try discriminate. intros [= <-].
  rewrite (IH _ eq_refl). reflexivity.
Qed.
Lemma mapM_draws E t gs os os' l l' :
  mapM (trim_outline E t) os = Ok os' ->
  Forall2 (draw_rel gs os) l l' ->
  exists l'', mapM (fun d => bind (mapM (trim_outline E t) (snd d)) (fun os => Ok (fst d, os))) l' = Ok l'' /\
    Forall2 (draw_rel gs os') l l''.
Proof.
  intros Ho F. induction F as [|d sd l l' [Q1 Q2] F (l'' & IH1 & IH2)]; simpl; [eauto|].
  rewrite Q2, (mapM_firstn _ _ _ _ _ _ (mapM_skipn _ _ _ _ _ _ Ho)). simpl. rewrite IH1. simpl.
  eexists. split; [reflexivity|]. constructor; auto. split; auto.
Qed.
Lemma refine_trim E gs ds s0 b p s t s' :
  rel gs ds s0 b p s ->
  advance_all s (match trim_normalized t with
                 | None => [TErase]
                 | Some (first, second) => if trim_is_full first second then [] else [TTrim]
                 end) = Some s' ->
  exists b' p', apply_trim E b t gs = Ok b' /\ trim_pic E t p = Ok p' /\
    rel gs ds s0 b' p' s' /\ frame_eq gs ds b b'.
Proof.
  intros R A. pose proof R as [I Dr Os Ds Pd En]. pose proof (rel_outlines_length _ _ _ _ _ _ R) as Lo.
  pose proof I as [].
  destruct (trim_normalized t) as [[f se]|] eqn:Hn.
  - destruct (trim_is_full f se) eqn:Hf.
    + (* nothing *)
      injection A as <-. exists b, p. rewrite (apply_trim_full E b t gs f se Hn Hf).
      split; [reflexivity|]. split; [|split; [exact R|apply frame_eq_refl]].
      assert (Id : forall os, mapM (trim_outline E t) os = Ok os).
      { intros os. rewrite (mapM_ok _ _ _ (fun o => o)); [now rewrite map_id|].
        intros o _. unfold trim_outline. now rewrite Hn, Hf. }
      unfold trim_pic. rewrite Id. cbn [bind].
      rewrite (mapM_ok _ _ _ (fun d => d)); [rewrite map_id; cbn [bind]; now destruct p|].
      intros [sy os] _. cbn [snd fst]. rewrite Id. reflexivity.
    + destruct (apply_trim_partial E gs ds b t f se Hn Hf I)
        as (paths & b' & Hm & Ha & I' & Dd & Dn & Lg & Hg & Hl).
      assert (Ho : mapM (trim_outline E t) (pc_outlines p) =
                   Ok (combine paths (map gd_transform (skipn gs (b_geoms b))))).
      { rewrite <- Os. eapply trim_outline_combine; eauto. }
      destruct (mapM_draws E t gs _ _ _ _ Ho Ds) as (ds' & Hd & Fd).
      exists b'. eexists. split; [exact Ha|]. split; [unfold trim_pic; rewrite Ho; cbn [bind]; rewrite Hd; reflexivity|].
      pose proof (mapM_length _ _ _ _ _ Hm) as Lp.
      assert (L1 : List.length (firstn gs (b_geoms b)) = gs) by (rewrite firstn_length; lia).
      assert (S1 : map (geo_of (b_elements b')) (firstn gs (b_geoms b')) =
                   map (geo_of (b_elements b)) (firstn gs (b_geoms b)) /\
                   map (geo_of (b_elements b')) (skipn gs (b_geoms b')) =
                   combine paths (map gd_transform (skipn gs (b_geoms b)))).
      { rewrite <- firstn_map, <- skipn_map, Hg. split.
        - apply firstn_len_app. now rewrite map_length.
        - apply skipn_len_app. now rewrite map_length. }
      destruct S1 as [S1 S2].
      split; [constructor|split].
      * exact I'.
      * rewrite Dd, Dn. exact Dr.
      * exact S2.
      * rewrite Dd. exact Fd.
      * cbn [advance_all advance] in A. destruct s as [[[a d] c]|]; injection A as <-.
        -- destruct Pd as (P0 & (l & gl & Gl & Ta & Ec) & P1 & P2). cbn [pend_rel pc_open].
           rewrite Dn, Lg. split; [exact P0|]. split; [|split; auto].
           destruct Hl as (l' & g' & Gl' & Eg'); [rewrite Gl; destruct l; discriminate|].
           exists l', g'. split; [exact Gl'|]. split; auto.
           (* the transforms are unchanged *)
           assert (T : map gd_transform (b_geoms b') = map gd_transform (b_geoms b)).
           { transitivity (map snd (map (geo_of (b_elements b')) (b_geoms b'))).
             - rewrite map_map. reflexivity.
             - rewrite Hg, map_app, map_map. rewrite map_combine_snd by now rewrite map_length.
               change (map (fun x => snd (geo_of (b_elements b) x)) (firstn gs (b_geoms b)))
                 with (map gd_transform (firstn gs (b_geoms b))).
               now rewrite <- map_app, firstn_skipn. }
           rewrite Gl, Gl', !map_app in T. cbn [map] in T. apply app_inj_tail in T as [_ T]. congruence.
        -- destruct Pd as [P0 P1]. cbn [pend_rel pc_open]. rewrite Dn, Lg. auto.
      * cbn [advance_all advance] in A. destruct s as [[[a d] c]|]; injection A as <-; [|exact En].
        destruct d; exact En.
      * exact S1.
      * now rewrite Dd.
  - destruct (apply_trim_none E gs ds b t Hn I) as (b' & Ha & I' & Dd & Dn & El & Gm).
    assert (L1 : List.length (firstn gs (b_geoms b)) = gs) by (rewrite firstn_length; lia).
    assert (Ho : mapM (trim_outline E t) (pc_outlines p) = Ok (map (fun o => ([], snd o)) (pc_outlines p))).
    { apply mapM_ok. intros o _. unfold trim_outline. now rewrite Hn. }
    destruct (mapM_draws E t gs _ _ _ _ Ho Ds) as (ds' & Hd & Fd).
    exists b'. eexists. split; [exact Ha|]. split; [unfold trim_pic; rewrite Ho; cbn [bind]; rewrite Hd; reflexivity|].
    assert (LG : List.length (b_geoms b') = List.length (b_geoms b)).
    { rewrite Gm, app_length, map_length, <- app_length, firstn_skipn. reflexivity. }
    split; [constructor|split].
    + exact I'.
    + rewrite Dd, Dn. exact Dr.
    + rewrite Gm, skipn_len_app by auto. cbn [pc_outlines]. rewrite <- Os, !map_map. reflexivity.
    + rewrite Dd. exact Fd.
    + destruct s as [[[a d] c]|]; cbn [advance_all advance] in A.
      * destruct Pd as (P0 & (l & gl & Gl & Ta & Ec) & P1 & P2).
        assert (W : exists l' g', b_geoms b' = l' ++ [g'] /\ gd_transform g' = a /\
                     (0 < d -> g' = gl)).
        { rewrite Gm. destruct d as [|d].
          - destruct (P1 eq_refl) as [P1' _]. rewrite Gl in *. rewrite app_length in P1'. simpl in P1'.
            rewrite skipn_app. replace (gs - List.length l) with 0 by lia. cbn [skipn].
            rewrite map_app. cbn [map]. eexists _, _. rewrite app_assoc. split; [reflexivity|].
            split; [exact Ta|lia].
          - destruct (P2 ltac:(lia)) as [P2' _]. rewrite P2', firstn_all, skipn_all. cbn [map].
            rewrite app_nil_r. eauto. }
        destruct W as (l' & g' & Gl' & Tg' & Eg').
        assert (PR : forall c', (c' = false -> 0 < d /\ c = false) -> pend_rel gs b'
           {| pc_outlines := map (fun o => ([], snd o)) (pc_outlines p); pc_draws := ds';
              pc_open := pc_open p; pc_used := pc_used p |} (Some (a, d, c'))).
        { intros c' Hc'. cbn [pend_rel pc_open]. rewrite Dn, LG, El. split; [exact P0|]. split; [|split; auto].
          exists l', g'. split; [exact Gl'|]. split; [exact Tg'|].
          intros ->. destruct (Hc' eq_refl) as [W1 W2]. rewrite (Eg' W1). auto. }
        destruct d as [|d]; injection A as <-; apply PR.
        -- discriminate.
        -- intros ->. auto with arith.
      * injection A as <-. destruct Pd as [P0 P1]. cbn [pend_rel pc_open]. rewrite Dn, LG. auto.
    + destruct s as [[[a [|d]] c]|]; cbn [advance_all advance] in A; injection A as <-; exact En.
    + rewrite Gm, El, firstn_len_app by auto. reflexivity.
    + now rewrite Dd.
Qed.

(** ** Groups *)
Lemma rel_enter gs ds s0 b p s s1 : rel gs ds s0 b p s -> advance s TEnter = Some s1 ->
  rel (List.length (b_geoms b)) (List.length (b_draws b)) s1 b pic_empty s1.
Proof.
  intros [I Dr Os Ds Pd En] A. constructor; auto.
  - eapply binv_enter; eauto.
  - rewrite skipn_all. reflexivity.
  - rewrite skipn_all. constructor.
  - destruct s as [[[a d] c]|]; cbn [advance] in A; injection A as <-.
    + destruct Pd as (P0 & P & _). cbn [pend_rel]. split; auto. split; auto. split; [lia|]. auto.
    + destruct Pd as [P0 _]. split; auto.
  - destruct s as [[[a d] c]|]; cbn [advance] in A; injection A as <-; cbn [entry_rel]; eauto.
Qed.
Lemma rel_leave gs ds s0 b p s s1 b1 child s2 s3 :
  rel gs ds s0 b p s -> advance s TEnter = Some s1 ->
  rel (List.length (b_geoms b)) (List.length (b_draws b)) s1 b1 child s2 ->
  frame_eq (List.length (b_geoms b)) (List.length (b_draws b)) b b1 ->
  advance s2 TLeave = Some s3 ->
  rel gs ds s0 b1 (include p child) s3 /\ frame_eq gs ds b b1.
Proof.
  intros R A R1 [F1 F2] A3. pose proof R as [I Dr Os Ds Pd En].
  pose proof (rel_outlines_length _ _ _ _ _ _ R) as Lo.
  pose proof R1 as [I1 Dr1 Os1 Ds1 Pd1 En1].
  pose proof (rel_outlines_length _ _ _ _ _ _ R1) as Lo1.
  rewrite !firstn_all in *.
  assert (Ig : gs <= List.length (b_geoms b)) by apply I.
  assert (Id : ds <= List.length (b_draws b)) by apply I.
  assert (Ig1 : List.length (b_geoms b) <= List.length (b_geoms b1)) by apply I1.
  assert (Id1 : List.length (b_draws b) <= List.length (b_draws b1)) by apply I1.
  assert (SG : map (geo_of (b_elements b1)) (skipn gs (b_geoms b1)) = pc_outlines p ++ pc_outlines child).
  { rewrite <- Os1, <- Os. rewrite <- (firstn_skipn (List.length (b_geoms b)) (b_geoms b1)) at 1.
    rewrite skipn_app, firstn_length. rewrite Nat.min_l by auto.
    replace (gs - List.length (b_geoms b)) with 0 by lia. cbn [skipn].
    rewrite map_app, <- skipn_map, F1, skipn_map. reflexivity. }
  assert (SD : skipn ds (b_draws b1) = skipn ds (b_draws b) ++ skipn (List.length (b_draws b)) (b_draws b1)).
  { rewrite <- (firstn_skipn (List.length (b_draws b)) (b_draws b1)) at 1. rewrite F2.
    rewrite skipn_app. replace (ds - List.length (b_draws b)) with 0 by lia. reflexivity. }
  split; [constructor|split].
  - eapply binv_leave; eauto.
  - exact Dr1.
  - exact SG.
  - rewrite SD. cbn [include pc_draws pc_outlines]. apply Forall2_app.
    + eapply Forall2_impl_in; [|exact Ds]. intros d sd Hd _ [Q1 Q2]. split; auto. rewrite Q2.
      pose proof (rel_draw_bounds _ _ _ _ _ _ _ R Hd). unfold outline in *. rewrite slice_app_l; auto. lia.
    + eapply Forall2_impl_in; [|exact Ds1]. intros d sd Hd _ [Q1 Q2]. split; auto. rewrite Q2.
      pose proof (rel_draw_bounds _ _ _ _ _ _ _ R1 Hd). unfold outline in *. rewrite slice_app_r by lia.
      f_equal. f_equal. lia.
  - destruct s2 as [[[a2 d2] c2]|]; cbn [advance] in A3; injection A3 as <-.
    + destruct Pd1 as (P0 & (l & gl & Gl & Ta & Ec) & P1 & P2). cbn [pend_rel].
      split; [exact P0|]. split; [eauto 6|]. destruct d2 as [|d2]; cbn [pred].
      * destruct (P1 eq_refl) as [Q1 Q2]. split; [|lia]. intros _. split; [lia|].
        cbn [include pc_open]. now rewrite Q2.
      * destruct (P2 ltac:(lia)) as [Q1 Q2]. destruct En1 as [U (c0 & E0)].
        destruct s as [[[a d] c]|]; cbn [advance] in A; injection A as <-; [|discriminate].
        injection E0 as <- <- <-. destruct Pd as (P0' & _ & P1' & P2').
        cbn [include pc_open]. rewrite Q2, U. cbn [orb negb]. rewrite andb_true_r. rewrite <- Q1.
        split; auto.
    + destruct Pd1 as [P0 P1]. cbn [pend_rel]. split; [exact P0|].
      cbn [include pc_open]. rewrite P1. cbn [orb]. destruct En1 as [U|E0].
      * rewrite U. apply andb_false_r.
      * subst s1. destruct s as [[[a d] c]|]; cbn [advance] in A; [discriminate|].
        destruct Pd as [_ ->]. reflexivity.
  - destruct s2 as [[[a2 d2] c2]|]; cbn [advance] in A3; injection A3 as <-.
    + destruct d2 as [|[|d2]]; cbn; auto. destruct En1 as [U (c0 & E0)].
      destruct s as [[[a d] c]|]; cbn [advance] in A; injection A as <-; [|discriminate].
      assert (d = S d2) by congruence. assert (a = a2) by congruence. subst d a. destruct En as [U' E']. cbn [include pc_used]. rewrite U, U'. auto.
    + cbn [entry_rel include pc_used] in *. destruct En1 as [U|E0].
      * left. rewrite U. apply orb_true_r.
      * subst s1. destruct s as [[[a d] c]|]; cbn [advance] in A; [discriminate|].
        destruct En as [U'|E']; [left; now rewrite U'|right; exact E'].
  - apply (f_equal (firstn gs)) in F1. rewrite !firstn_map, firstn_firstn in F1.
    rewrite Nat.min_l in F1 by auto. exact F1.
  - apply (f_equal (firstn ds)) in F2. rewrite firstn_firstn in F2.
    rewrite Nat.min_l in F2 by auto. exact F2.
Qed.

(** ** Trees *)
Lemma advance_all_app s t1 t2 : advance_all s (t1 ++ t2) =
  match advance_all s t1 with Some s => advance_all s t2 | None => None end.
Proof.
  revert s. induction t1 as [|t t1 IH]; intros s; simpl; [reflexivity|].
  destruct (advance s t); auto.
Qed.
Definition refines (E : Ext) (sh : shape) : Prop :=
  forall tf alpha frame gs ds s0 b p s s',
  rel gs ds s0 b p s -> advance_all s (tokens E frame tf sh) = Some s' ->
  exists b' p', render_shape E tf alpha frame gs ds sh b = Ok b' /\
    shape_pic E tf alpha frame sh p = Ok p' /\
    rel gs ds s0 b' p' s' /\ frame_eq gs ds b b'.
Lemma refine_list E shs : Forall (refines E) shs ->
  forall tf alpha frame gs ds s0 b p s s',
  rel gs ds s0 b p s -> advance_all s (flat_map (tokens E frame tf) shs) = Some s' ->
  exists b' p', fold_shapes (render_shape E tf alpha frame gs ds) shs b = Ok b' /\
    fold_shapes (shape_pic E tf alpha frame) shs p = Ok p' /\
    rel gs ds s0 b' p' s' /\ frame_eq gs ds b b'.
Proof.
  induction 1 as [|sh shs H _ IH]; intros tf alpha frame gs ds s0 b p s s' R A; simpl in *.
  - injection A as <-. exists b, p. auto using frame_eq_refl.
  - rewrite advance_all_app in A. destruct (advance_all s (tokens E frame tf sh)) as [s1|] eqn:A1; [|discriminate].
    destruct (H tf alpha frame gs ds s0 b p s s1 R A1) as (b1 & p1 & -> & -> & R1 & F1).
    destruct (IH tf alpha frame gs ds s0 b1 p1 s1 s' R1 A) as (b2 & p2 & H2 & H3 & R2 & F2).
    exists b2, p2. cbn [bind]. eauto 6 using frame_eq_trans.
Qed.
Lemma refine_shape E sh : all_geometry (sound_geometry E) sh -> refines E sh.
Proof.
  induction sh using shape_ind'; intros Hs tf alpha frame gs ds s0 b p s s' R A.
  - apply all_geometry_group in Hs. cbn [tokens advance_all] in A.
    destruct (advance s TEnter) as [s1|] eqn:A1; [|discriminate].
    rewrite advance_all_app in A.
    destruct (advance_all s1 _) as [s2|] eqn:A2 in A; [|discriminate].
    cbn [advance_all] in A. destruct (advance s2 TLeave) as [s3|] eqn:A3; [|discriminate]. injection A as <-.
    assert (HF : Forall (refines E) shs).
    { rewrite Forall_forall in *. intros x Hx. apply H; auto. }
    cbn [render_shape shape_pic].
    replace (fst (group_params E t frame)) with (group_tf E t frame) by (destruct t; reflexivity).
    replace (snd (group_params E t frame)) with (group_alpha E t frame) by (destruct t; reflexivity).
    destruct (refine_list E shs HF _ (fmul alpha (group_alpha E t frame)) frame _ _ s1 b pic_empty s1 s2
                (rel_enter _ _ _ _ _ _ _ R A1) A2) as (b1 & child & H1 & H2 & R1 & F1).
    rewrite H1, H2. cbn [bind]. exists b1, (include p child).
    destruct (rel_leave _ _ _ _ _ _ _ _ _ _ _ R A1 R1 F1 A3). auto.
  - destruct (Hs frame) as (els & H1 & H2). cbn [tokens advance_all] in A.
    destruct (advance s (TPath tf)) as [s1|] eqn:A1; [|discriminate]. injection A as <-.
    destruct (refine_path E gs ds s0 b p s tf frame g els s1 H1 H2 R A1) as (b' & H3 & R3 & F3).
    cbn [render_shape shape_pic]. rewrite H1. cbn [bind]. eauto 8.
  - cbn [tokens advance_all] in A. replace (advance s TUse) with (Some (@None (affine * nat * bool))) in A
      by (destruct s as [[[]]|]; reflexivity). injection A as <-.
    cbn [render_shape shape_pic]. eexists _, _. split; [reflexivity|]. split; [reflexivity|].
    exact (refine_draw E gs ds s0 b p s d alpha frame R).
  - cbn [tokens advance_all] in A. replace (advance s TUse) with (Some (@None (affine * nat * bool))) in A
      by (destruct s as [[[]]|]; reflexivity). injection A as <-.
    cbn [render_shape shape_pic].
    destruct (refine_repeat E gs ds s0 b p s (repeater_eval E r frame) R) as (b' & H1 & R1 & F1). eauto 8.
  - cbn [tokens] in A. cbn [render_shape shape_pic]. eapply refine_trim; eauto.
Qed.

Lemma rel_empty : rel 0 0 None batch_empty pic_empty None.
Proof. constructor; simpl; auto. apply binv_empty. Qed.
(** Main result: without a clash, the batch holds exactly the picture. *)
Lemma render_refines E shs tf alpha frame :
  Forall (all_geometry (sound_geometry E)) shs -> no_clash E frame tf shs ->
  exists b p, render_shapes E shs tf alpha frame batch_empty = Ok b /\
    shapes_pic E tf alpha frame shs = Ok p /\
    batch_render E b = Ok (pic_paints E p).
Proof.
  intros Hs Hc. unfold no_clash in Hc.
  destruct (advance_all None (flat_map (tokens E frame tf) shs)) as [s'|] eqn:A; [|congruence].
  assert (HF : Forall (refines E) shs).
  { eapply Forall_impl; [|exact Hs]. apply refine_shape. }
  destruct (refine_list E shs HF tf alpha frame 0 0 None batch_empty pic_empty None s' rel_empty A)
    as (b & p & H1 & H2 & R & _).
  exists b, p. split; [exact H1|]. split; [exact H2|].
  pose proof R as [I _ Os Ds _ _]. rewrite (batch_render_eq E 0 0 b I). f_equal.
  unfold pic_paints. f_equal. rewrite !map_rev. f_equal. cbn [skipn] in Ds, Os.
  clear - Os Ds. revert Ds. generalize (b_draws b) (pc_draws p). induction 1 as [|d sd l l' [Q1 Q2] _ IH]; [reflexivity|].
  cbn [map]. rewrite IH. f_equal. unfold draw_paints, paints_of. rewrite Q2, Nat.sub_0_r, <- Os.
  rewrite skipn_map, firstn_map, map_map. unfold style_brush, draw_brush. rewrite <- Q1. cbn.
  apply map_ext. intros g. f_equal. destruct (feqb (dd_alpha d) _); reflexivity.
Qed.
