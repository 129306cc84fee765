(** The invariant of [Batch] kept by all shape operations, and the absence of
    out-of-range accesses (used by C13, C18, C19). *)
From Coq Require Import ZArith Bool List Arith String Lia.
From Flocq Require Import Core BinarySingleNaN.
From Verif Require Import F64 Kurbo Value Animated Batch Render RenderFacts BatchSpec.
Import ListNotations.

(** ** Lists *)
Lemma slice_ok A (l : list A) a b : a <= b <= List.length l ->
  slice l a b = Ok (firstn (b - a) (skipn a l)).
Proof.
  intros H. unfold slice. destruct (Nat.leb_spec a b); [|lia].
  destruct (Nat.leb_spec b (List.length l)); [reflexivity|lia].
Qed.
Lemma slice_from_ok A (l : list A) a : a <= List.length l -> slice_from l a = Ok (skipn a l).
Proof. intros H. unfold slice_from. now rewrite (proj2 (Nat.leb_le _ _) H). Qed.
Lemma slice_to_ok A (l : list A) a : a <= List.length l -> slice_to l a = Ok (firstn a l).
Proof. intros H. unfold slice_to. now rewrite (proj2 (Nat.leb_le _ _) H). Qed.
Lemma usub_ok a b : b <= a -> usub a b = Ok (a - b).
Proof. intros H. unfold usub. now rewrite (proj2 (Nat.leb_le _ _) H). Qed.
Lemma mapM_ok A B (f : A -> res B) (g : A -> B) l :
  (forall x, In x l -> f x = Ok (g x)) -> mapM f l = Ok (map g l).
Proof.
  induction l as [|x l IH]; simpl; intros H; [reflexivity|].
  rewrite (H x) by auto. simpl. rewrite IH by auto. reflexivity.
Qed.
Lemma mapM_forall A B (f : A -> res B) (P : B -> Prop) l :
  (forall x, In x l -> exists y, f x = Ok y /\ P y) ->
  exists ys, mapM f l = Ok ys /\ Forall P ys /\ List.length ys = List.length l.
Proof.
  induction l as [|x l IH]; simpl; intros H.
  - exists []. auto.
  - destruct (H x) as (y & -> & Py); auto. destruct IH as (ys & -> & Pys & L); auto.
    simpl. exists (y :: ys). simpl. auto.
Qed.

Lemma last_opt_app A (l : list A) x : last_opt (l ++ [x]) = Some x.
Proof.
  unfold last_opt. rewrite app_length. simpl. rewrite Nat.add_sub.
  rewrite nth_error_app2, Nat.sub_diag; auto.
Qed.
Lemma last_opt_some A (l : list A) x : last_opt l = Some x -> exists l', l = l' ++ [x].
Proof.
  destruct l as [|y l] using rev_ind; [discriminate|].
  rewrite last_opt_app. intros [= <-]. eauto.
Qed.
Lemma set_last_end_app l g e :
  set_last_end (l ++ [g]) e = l ++ [mkGeom (gd_start g) e (gd_transform g)].
Proof.
  induction l as [|x l IH]; [reflexivity|]. simpl. rewrite IH.
  destruct l; reflexivity.
Qed.

Lemma combine_app A B (a1 a2 : list A) (b1 b2 : list B) : List.length a1 = List.length b1 ->
  combine (a1 ++ a2) (b1 ++ b2) = combine a1 b1 ++ combine a2 b2.
Proof. revert b1. induction a1; intros [|]; simpl; try discriminate; auto. intros [= H]. f_equal; auto. Qed.

(** ** Paths *)
Definition ok_path (els : list path_el) : Prop := bezpath_ok els = true.
Lemma ok_path_nil : ok_path [].
Proof. reflexivity. Qed.
Lemma ok_path_app a b : ok_path a -> ok_path b -> ok_path (a ++ b).
Proof. unfold ok_path. destruct a as [|[]]; simpl; auto. Qed.
Lemma ok_path_firstn n a : ok_path a -> ok_path (firstn n a).
Proof. unfold ok_path. destruct n, a as [|[]]; simpl; auto. Qed.
Lemma ok_path_concat l : Forall ok_path l -> ok_path (List.concat l).
Proof. induction 1; simpl; [reflexivity|now apply ok_path_app]. Qed.
Lemma ok_path_segments els : ok_path els -> exists segs, collect_segments els = Ok segs.
Proof.
  unfold ok_path, collect_segments. intros H. rewrite H. destruct els as [|e els]; [simpl; eauto|].
  destruct e; simpl in *; try discriminate. eauto.
Qed.
Lemma trim_segs_ok E a b segs : forall cur nm, nm = true -> ok_path (trim_segs E a b cur nm segs).
Proof.
  induction segs as [|s segs IH]; intros cur nm ->; simpl; [reflexivity|].
  destruct (fltb _ _); [now apply IH|]. destruct (fltb _ _); [reflexivity|].
  destruct (fltb _ _); [reflexivity|now apply IH].
Qed.
Lemma trim_path_ok E f s els : ok_path els ->
  exists p, trim_path E f s els = Ok p /\ ok_path p.
Proof.
  intros H. destruct (ok_path_segments els H) as (segs & Hs). unfold trim_path.
  rewrite Hs. simpl. destruct (_ || _); [exists []; split; reflexivity|].
  eexists. split; [reflexivity|].
  apply ok_path_app; [now apply trim_segs_ok|].
  destruct s as [r|]; simpl; [|reflexivity]. rewrite app_nil_r. now apply trim_segs_ok.
Qed.

(** ** The invariant *)
Definition path_of (els : list path_el) (g : geom_data) : list path_el :=
  firstn (gd_end g - gd_start g) (skipn (gd_start g) els).
Definition geo_of (els : list path_el) (g : geom_data) : list path_el * affine :=
  (path_of els g, gd_transform g).
Record geom_ok (els : list path_el) (g : geom_data) : Prop := mkGeomOk {
  go_le : gd_start g <= gd_end g;
  go_end : gd_end g <= List.length els;
  go_move : ok_path (skipn (gd_start g) els) }.
Record binv (gs ds : nat) (b : batch) : Prop := mkBinv {
  bi_rg : b_rep_geoms b = [];
  bi_rd : b_rep_draws b = [];
  bi_tr : b_trim b = [];
  bi_els : ok_path (b_elements b);
  bi_geoms : Forall (geom_ok (b_elements b)) (b_geoms b);
  bi_drawn : b_drawn b <= List.length (b_geoms b);
  bi_draws : Forall (fun d => dd_start d <= dd_end d <= List.length (b_geoms b)) (b_draws b);
  bi_gs : gs <= List.length (b_geoms b);
  bi_ds : ds <= List.length (b_draws b);
  bi_before : Forall (fun d => dd_end d <= gs) (firstn ds (b_draws b));
  bi_after : Forall (fun d => gs <= dd_start d) (skipn ds (b_draws b)) }.

Lemma geom_ok_path els g : geom_ok els g -> ok_path (path_of els g).
Proof. intros [_ _ H]. now apply ok_path_firstn. Qed.
Lemma geom_ok_slice els g : geom_ok els g -> slice els (gd_start g) (gd_end g) = Ok (path_of els g).
Proof. intros [H1 H2 _]. apply slice_ok. lia. Qed.
Lemma path_of_length els g : geom_ok els g -> List.length (path_of els g) = gd_end g - gd_start g.
Proof.
  intros [H1 H2 _]. unfold path_of. rewrite firstn_length, skipn_length. lia.
Qed.
Lemma geom_ok_grow els new g : ok_path new -> geom_ok els g -> geom_ok (els ++ new) g.
Proof.
  intros Hn [H1 H2 H3]. constructor; auto.
  - rewrite app_length. lia.
  - rewrite skipn_app. apply ok_path_app; auto.
    replace (gd_start g - List.length els) with 0 by lia. exact Hn.
Qed.
Lemma path_of_grow els new g : geom_ok els g -> path_of (els ++ new) g = path_of els g.
Proof.
  intros [H1 H2 _]. unfold path_of. rewrite skipn_app, firstn_app.
  rewrite skipn_length. replace (gd_end g - gd_start g - (List.length els - gd_start g)) with 0 by lia.
  now rewrite app_nil_r.
Qed.
Lemma binv_empty : binv 0 0 batch_empty.
Proof. constructor; simpl; auto; lia || reflexivity. Qed.
Lemma binv_enter gs ds b : binv gs ds b -> binv (List.length (b_geoms b)) (List.length (b_draws b)) b.
Proof.
  intros []. constructor; auto.
  - rewrite firstn_all. eapply Forall_impl; [|exact bi_draws0]. simpl. lia.
  - rewrite skipn_all. constructor.
Qed.
(** Leaving a group entered at [b0]: the draws in front are those of [b0]. *)
Lemma binv_leave gs ds b0 b :
  binv gs ds b0 -> binv (List.length (b_geoms b0)) (List.length (b_draws b0)) b ->
  firstn (List.length (b_draws b0)) (b_draws b) = b_draws b0 -> binv gs ds b.
Proof.
  intros [] [] Hp. constructor; auto; try lia.
  - rewrite <- Hp in bi_before0. rewrite firstn_firstn in bi_before0.
    now rewrite Nat.min_l in bi_before0 by lia.
  - rewrite <- (firstn_skipn (List.length (b_draws b0)) (b_draws b)), Hp.
    rewrite skipn_app. apply Forall_app. split; auto.
    replace (ds - List.length (b_draws b0)) with 0 by lia.
    eapply Forall_impl; [|exact bi_after1]. simpl. lia.
Qed.

(** ** Operations *)
Lemma push_geometry_inv E gs ds b g tf frame els :
  geometry_eval E g frame = Ok els -> ok_path els -> binv gs ds b ->
  exists b', push_geometry E b g tf frame = Ok b' /\ binv gs ds b' /\
    b_draws b' = b_draws b /\ b_elements b' = b_elements b ++ els /\ b_drawn b' = b_drawn b /\
    b_geoms b' = (if can_merge b tf then set_last_end (b_geoms b) (List.length (b_elements b ++ els))
                  else b_geoms b ++ [mkGeom (List.length (b_elements b)) (List.length (b_elements b ++ els)) tf]).
Proof.
  intros Hg Hp []. unfold push_geometry. rewrite Hg. simpl. eexists. split; [reflexivity|].
  split; [|repeat split]. simpl.
  assert (G : Forall (geom_ok (b_elements b ++ els)) (b_geoms b))
    by (eapply Forall_impl; [|exact bi_geoms0]; intros; now apply geom_ok_grow).
  assert (E1 : ok_path (b_elements b ++ els)) by now apply ok_path_app.
  destruct (can_merge b tf) eqn:Em.
  - unfold can_merge in Em. apply andb_prop in Em as [E2 E3].
    destruct (last_opt (b_geoms b)) as [l|] eqn:El; [|discriminate].
    apply last_opt_some in El as (pre & El). rewrite El in *. rewrite set_last_end_app.
    assert (L : forall x : geom_data, List.length (pre ++ [x]) = List.length (pre ++ [l])) by
      (intros; rewrite !app_length; reflexivity).
    constructor; simpl; auto; rewrite ?L; auto.
    apply Forall_app in G as [G1 G2]. apply Forall_app. split; auto.
    inversion G2 as [|? ? [A B C]]; subst. constructor; auto. constructor; simpl; auto. lia.
  - constructor; simpl; auto; try (rewrite app_length; simpl; lia).
    + apply Forall_app. split; auto. constructor; [|constructor]. constructor; simpl; auto.
      * rewrite app_length. lia.
      * rewrite skipn_app, skipn_all, Nat.sub_diag. exact Hp.
    + eapply Forall_impl; [|exact bi_draws0]. simpl. intros d. rewrite app_length. simpl. lia.
Qed.

Lemma push_draw_inv E gs ds b d alpha frame :
  binv gs ds b -> binv gs ds (push_draw E b d alpha gs frame).
Proof.
  intros []. unfold push_draw. constructor; simpl; auto.
  - apply Forall_app. split; auto.
  - rewrite app_length. lia.
  - rewrite firstn_app. replace (ds - List.length (b_draws b)) with 0 by lia. simpl.
    now rewrite app_nil_r.
  - rewrite skipn_app. apply Forall_app. split; auto.
    replace (ds - List.length (b_draws b)) with 0 by lia. simpl. constructor; [|constructor].
    simpl. lia.
Qed.

(** The draw [d] of a repeated group, for one copy. *)
Definition repeated_draw (r : repeater) (gs : nat) (alpha : f64) (d : draw_data) : draw_data :=
  mkDD (dd_stroke d) (dd_brush d) (fmul (dd_alpha d) alpha)
       (gs + (dd_start d - gs) * rp_copies r) (gs + (dd_end d - gs) * rp_copies r).
Definition repeated_draws (r : repeater) (gs : nat) (ds : list draw_data) : list draw_data :=
  flat_map (fun i => if fleb (repeat_alpha r i) f0 then []
                     else map (repeated_draw r gs (repeat_alpha r i)) ds)
           (seq 0 (rp_copies r)).
Lemma repeat_draws_eq r gs ds :
  Forall (fun d => gs <= dd_start d /\ dd_start d <= dd_end d) ds ->
  mapM (repeat_draws_at r gs ds) (seq 0 (rp_copies r)) =
  Ok (map (fun i => if fleb (repeat_alpha r i) f0 then []
                     else map (repeated_draw r gs (repeat_alpha r i)) ds) (seq 0 (rp_copies r))).
Proof.
  intros H. apply mapM_ok. intros i _. unfold repeat_draws_at. destruct (fleb _ _); [reflexivity|].
  apply mapM_ok. intros d Hd. rewrite Forall_forall in H. specialize (H d Hd). unfold repeat_draw.
  rewrite !usub_ok by lia. simpl. unfold repeated_draw. do 2 f_equal. nia.
Qed.
Lemma repeat_geoms_length E r l :
  List.length (flat_map (repeat_geom E r) l) = List.length l * rp_copies r.
Proof.
  induction l as [|g l IH]; [reflexivity|]. simpl. rewrite app_length, IH. unfold repeat_geom.
  now rewrite map_length, seq_length.
Qed.
Lemma batch_repeat_eq E gs ds b r : binv gs ds b ->
  batch_repeat E b r gs ds =
  Ok (mkBatch (b_elements b)
        (firstn gs (b_geoms b) ++ flat_map (repeat_geom E r) (skipn gs (b_geoms b)))
        (firstn ds (b_draws b) ++ repeated_draws r gs (skipn ds (b_draws b)))
        [] []
        (List.length (firstn gs (b_geoms b) ++ flat_map (repeat_geom E r) (skipn gs (b_geoms b))))
        (b_trim b)).
Proof.
  intros []. unfold batch_repeat. rewrite slice_from_ok by auto. cbn [bind].
  rewrite slice_from_ok by auto. cbn [bind]. rewrite bi_rg0, bi_rd0. cbn [app].
  rewrite repeat_draws_eq; [cbn [bind]; unfold repeated_draws; now rewrite <- flat_map_concat_map|].
  rewrite <- (firstn_skipn ds (b_draws b)) in bi_draws0. apply Forall_app in bi_draws0 as [_ D].
  rewrite Forall_forall in *. intros d Hd. specialize (D d Hd). specialize (bi_after0 d Hd).
  simpl in *. lia.
Qed.
Lemma batch_repeat_inv E gs ds b r b' : binv gs ds b ->
  batch_repeat E b r gs ds = Ok b' ->
  binv gs ds b' /\ firstn ds (b_draws b') = firstn ds (b_draws b).
Proof.
  intros Hb. rewrite (batch_repeat_eq E gs ds b r Hb). intros [= <-]. destruct Hb.
  assert (Lg : List.length (firstn gs (b_geoms b)) = gs) by (rewrite firstn_length; lia).
  assert (Ld : List.length (firstn ds (b_draws b)) = ds) by (rewrite firstn_length; lia).
  assert (F : firstn ds (firstn ds (b_draws b) ++ repeated_draws r gs (skipn ds (b_draws b)))
              = firstn ds (b_draws b)).
  { rewrite firstn_app, Ld, Nat.sub_diag, firstn_firstn, Nat.min_id. simpl. now rewrite app_nil_r. }
  split; [|exact F].
  assert (D : forall d, In d (repeated_draws r gs (skipn ds (b_draws b))) ->
     gs <= dd_start d <= dd_end d /\
     dd_end d <= gs + (List.length (b_geoms b) - gs) * rp_copies r).
  { intros d Hd. unfold repeated_draws in Hd. apply in_flat_map in Hd as (i & _ & Hd).
    destruct (fleb _ _); [contradiction|]. apply in_map_iff in Hd as (d0 & <- & H0).
    simpl. assert (I0 : In d0 (b_draws b)) by
      (rewrite <- (firstn_skipn ds (b_draws b)); apply in_or_app; auto).
    rewrite Forall_forall in bi_draws0, bi_after0. specialize (bi_draws0 d0 I0).
    specialize (bi_after0 d0 H0). simpl in *. nia. }
  constructor; simpl; auto.
  - rewrite <- (firstn_skipn gs (b_geoms b)) in bi_geoms0. apply Forall_app in bi_geoms0 as [G1 G2].
    apply Forall_app. split; auto. rewrite Forall_forall in *. intros g Hg.
    apply in_flat_map in Hg as (g0 & H0 & Hg). unfold repeat_geom in Hg.
    apply in_map_iff in Hg as (i & <- & _). destruct (G2 g0 H0). constructor; auto.
  - rewrite app_length, Lg, repeat_geoms_length, skipn_length.
    apply Forall_app. split.
    + rewrite <- (firstn_skipn ds (b_draws b)) in bi_draws0. apply Forall_app in bi_draws0 as [D1 _].
      rewrite Forall_forall in *. intros d Hd. specialize (D1 d Hd). specialize (bi_before0 d Hd).
      simpl in *. split; [lia|]. apply Nat.le_trans with gs; [assumption|apply Nat.le_add_r].
    + rewrite Forall_forall. intros d Hd. specialize (D d Hd). lia.
  - rewrite app_length, Lg. lia.
  - rewrite app_length, Ld. lia.
  - now rewrite F.
  - rewrite skipn_app, Ld, Nat.sub_diag. simpl. apply Forall_app. split.
    + rewrite skipn_all2 by lia. constructor.
    + rewrite Forall_forall. intros d Hd. specialize (D d Hd). lia.
Qed.

(** Trim: what becomes of the geometries. *)
Lemma copy_prefix_eq els gs : Forall (geom_ok els) gs -> forall acc,
  copy_prefix els gs acc = Ok (acc ++ List.concat (map (path_of els) gs)).
Proof.
  induction 1 as [|g gs Hg _ IH]; intros acc; simpl; [now rewrite app_nil_r|].
  rewrite (geom_ok_slice els g Hg). simpl. rewrite IH. now rewrite app_assoc.
Qed.
Definition trimmed_geoms (base : nat) (paths : list (list path_el)) (gs : list geom_data) : list geom_data :=
  (fix go base paths gs := match paths, gs with
   | p :: paths, g :: gs => mkGeom base (base + List.length p) (gd_transform g)
                            :: go (base + List.length p) paths gs
   | _, _ => [] end) base paths gs.
Lemma trim_geoms_eq E f s els gs : Forall (geom_ok els) gs -> forall acc,
  exists paths, mapM (fun g => trim_path E f s (path_of els g)) gs = Ok paths /\
    Forall ok_path paths /\ List.length paths = List.length gs /\
    trim_geoms E f s els gs acc =
    Ok (trimmed_geoms (List.length acc) paths gs, acc ++ List.concat paths).
Proof.
  induction 1 as [|g gs Hg _ IH]; intros acc; simpl.
  - exists []. simpl. rewrite app_nil_r. auto.
  - rewrite (geom_ok_slice els g Hg). simpl.
    destruct (trim_path_ok E f s (path_of els g) (geom_ok_path _ _ Hg)) as (p & -> & Hp). simpl.
    destruct (IH (acc ++ p)) as (ps & -> & Hps & Hl & ->). simpl.
    exists (p :: ps). simpl. rewrite app_length, <- app_assoc. auto 6.
Qed.
Lemma reoffset_trimmed els off gs : Forall (geom_ok els) gs ->
  reoffset off gs = trimmed_geoms off (map (path_of els) gs) gs.
Proof.
  intros H. revert off. induction H as [|g gs Hg _ IH]; intros off; simpl; [reflexivity|].
  rewrite (path_of_length els g Hg), <- IH. reflexivity.
Qed.
Lemma trimmed_geoms_app base p1 p2 g1 g2 : List.length p1 = List.length g1 ->
  trimmed_geoms base (p1 ++ p2) (g1 ++ g2) =
  trimmed_geoms base p1 g1 ++ trimmed_geoms (base + List.length (List.concat p1)) p2 g2.
Proof.
  revert base g1. induction p1 as [|p p1 IH]; intros base [|g g1]; simpl; try discriminate.
  - now rewrite Nat.add_0_r.
  - intros [= L]. rewrite IH by auto. rewrite app_length, Nat.add_assoc. reflexivity.
Qed.
Lemma trimmed_geoms_length base p g : List.length p = List.length g ->
  List.length (trimmed_geoms base p g) = List.length g.
Proof.
  revert base g. induction p as [|x p IH]; intros base [|y g]; simpl; try discriminate; auto.
Qed.
(** Laid out back to back, the geometries select exactly the given paths. *)
Lemma trimmed_geoms_spec paths : forall pre gs, ok_path pre -> Forall ok_path paths ->
  List.length paths = List.length gs ->
  let els := pre ++ List.concat paths in
  Forall (geom_ok els) (trimmed_geoms (List.length pre) paths gs) /\
  map (geo_of els) (trimmed_geoms (List.length pre) paths gs) =
  combine paths (map gd_transform gs).
Proof.
  induction paths as [|p paths IH]; intros pre [|g gs] Hpre Hps L; try discriminate; simpl.
  - split; constructor.
  - inversion Hps; subst. injection L as L.
    destruct (IH (pre ++ p) gs) as [I1 I2]; auto; [now apply ok_path_app|].
    rewrite app_length, <- app_assoc in I1, I2. split.
    + constructor; [|exact I1]. constructor; simpl; rewrite ?app_length; try lia.
      rewrite skipn_app, skipn_all, Nat.sub_diag. simpl. apply ok_path_app; auto.
      now apply ok_path_concat.
    + rewrite <- I2. f_equal. unfold geo_of, path_of. simpl. f_equal.
      rewrite skipn_app, skipn_all, Nat.sub_diag. simpl.
      replace (List.length pre + List.length p - List.length pre) with (List.length p) by lia.
      now rewrite firstn_app, firstn_all, Nat.sub_diag, app_nil_r.
Qed.

(** A trim that is neither empty nor full. *)
Lemma apply_trim_partial E gs ds b t f s :
  trim_normalized t = Some (f, s) -> trim_is_full f s = false -> binv gs ds b ->
  exists paths b',
    mapM (fun g => trim_path E f s (path_of (b_elements b) g)) (skipn gs (b_geoms b)) = Ok paths /\
    apply_trim E b t gs = Ok b' /\ binv gs ds b' /\ b_draws b' = b_draws b /\
    b_drawn b' = b_drawn b /\ List.length (b_geoms b') = List.length (b_geoms b) /\
    map (geo_of (b_elements b')) (b_geoms b') =
    map (geo_of (b_elements b)) (firstn gs (b_geoms b)) ++
    combine paths (map gd_transform (skipn gs (b_geoms b))) /\
    (b_geoms b <> [] ->
     exists l g, b_geoms b' = l ++ [g] /\ gd_end g = List.length (b_elements b')).
Proof.
  intros Hn Hf Hb. pose proof Hb as []. unfold apply_trim. rewrite Hn, Hf.
  rewrite slice_to_ok by auto. cbn [bind]. rewrite bi_tr0.
  pose proof bi_geoms0 as G. rewrite <- (firstn_skipn gs (b_geoms b)) in G.
  apply Forall_app in G as [G1 G2].
  rewrite (copy_prefix_eq _ _ G1). cbn [bind app]. rewrite slice_from_ok by auto. cbn [bind].
  destruct (trim_geoms_eq E f s (b_elements b) _ G2
              (List.concat (map (path_of (b_elements b)) (firstn gs (b_geoms b)))))
    as (paths & Hm & Hps & Hl & ->).
  cbn [bind]. exists paths. eexists. split; [exact Hm|]. split; [reflexivity|].
  rewrite (reoffset_trimmed _ 0 _ G1).
  assert (Hp1 : Forall ok_path (map (path_of (b_elements b)) (firstn gs (b_geoms b)))).
  { apply Forall_map. eapply Forall_impl; [|exact G1]. apply geom_ok_path. }
  assert (EG : trimmed_geoms 0 (map (path_of (b_elements b)) (firstn gs (b_geoms b))) (firstn gs (b_geoms b)) ++
               trimmed_geoms (List.length (List.concat (map (path_of (b_elements b)) (firstn gs (b_geoms b)))))
                             paths (skipn gs (b_geoms b)) =
               trimmed_geoms 0 (map (path_of (b_elements b)) (firstn gs (b_geoms b)) ++ paths) (b_geoms b)).
  { rewrite <- (firstn_skipn gs (b_geoms b)) at 6. rewrite trimmed_geoms_app; auto. now rewrite map_length. }
  rewrite EG. rewrite <- concat_app.
  set (all := map (path_of (b_elements b)) (firstn gs (b_geoms b)) ++ paths) in *.
  assert (La : List.length all = List.length (b_geoms b)).
  { unfold all. rewrite app_length, map_length, Hl, <- app_length, firstn_skipn. reflexivity. }
  assert (Ha : Forall ok_path all) by (apply Forall_app; auto).
  destruct (trimmed_geoms_spec all [] (b_geoms b) ok_path_nil Ha La) as [S1 S2]. cbn [app List.length] in S1, S2.
  assert (LG : List.length (trimmed_geoms 0 all (b_geoms b)) = List.length (b_geoms b))
    by now apply trimmed_geoms_length.
  cbn [b_geoms b_draws b_elements b_drawn].
  split; [|split; [reflexivity|split; [reflexivity|split; [exact LG|split]]]].
  - constructor; cbn [b_geoms b_draws b_elements b_drawn b_rep_geoms b_rep_draws b_trim]; auto; rewrite ?LG; auto.
    now apply ok_path_concat.
  - rewrite S2. unfold all. rewrite <- (firstn_skipn gs (b_geoms b)) at 2.
    rewrite map_app, combine_app by (now rewrite !map_length). f_equal.
    clear. induction (firstn gs (b_geoms b)) as [|g l IH]; simpl; [reflexivity|]. now rewrite IH.
  - intros Hne. clear - La Hne.
    assert (Z : forall base, exists l g, trimmed_geoms base all (b_geoms b) = l ++ [g] /\
       gd_end g = base + List.length (List.concat all)); [|destruct (Z 0) as (l & g & H); eauto].
    revert Hne La. generalize (b_geoms b). induction all as [|p all IH]; intros [|g gs'] Hne La base; try discriminate;
      [now elim Hne|].
    injection La as La. destruct gs' as [|g' gs'].
    + destruct all; [|discriminate]. exists []. eexists. split; [reflexivity|]. simpl. now rewrite app_nil_r.
    + destruct (IH (g' :: gs') ltac:(discriminate) La (base + List.length p)) as (l & g0 & H1 & H2).
      simpl trimmed_geoms. simpl trimmed_geoms in H1. rewrite H1.
      eexists (_ :: l), g0. split; [reflexivity|]. rewrite H2. simpl. rewrite app_length. lia.
Qed.
(** A trim that removes everything. *)
Lemma apply_trim_none E gs ds b t :
  trim_normalized t = None -> binv gs ds b ->
  exists b', apply_trim E b t gs = Ok b' /\ binv gs ds b' /\ b_draws b' = b_draws b /\
    b_drawn b' = b_drawn b /\ b_elements b' = b_elements b /\
    b_geoms b' = firstn gs (b_geoms b) ++ map (fun g => mkGeom 0 0 (gd_transform g)) (skipn gs (b_geoms b)).
Proof.
  intros Hn Hb. pose proof Hb as []. unfold apply_trim. rewrite Hn. rewrite slice_from_ok by auto.
  cbn [bind]. eexists. split; [reflexivity|]. split; [|repeat split].
  assert (L : List.length (firstn gs (b_geoms b) ++
     map (fun g => mkGeom 0 0 (gd_transform g)) (skipn gs (b_geoms b))) = List.length (b_geoms b)).
  { rewrite app_length, map_length, <- app_length, firstn_skipn. reflexivity. }
  constructor; simpl; rewrite ?L; auto.
  rewrite <- (firstn_skipn gs (b_geoms b)) in bi_geoms0. apply Forall_app in bi_geoms0 as [G1 G2].
  apply Forall_app. split; auto. apply Forall_map. eapply Forall_impl; [|exact G2].
  intros g _. constructor; simpl; auto. lia.
Qed.
Lemma apply_trim_full E b t gs f s :
  trim_normalized t = Some (f, s) -> trim_is_full f s = true -> apply_trim E b t gs = Ok b.
Proof. intros Hn Hf. unfold apply_trim. now rewrite Hn, Hf. Qed.
Lemma apply_trim_inv E gs ds b t : binv gs ds b ->
  exists b', apply_trim E b t gs = Ok b' /\ binv gs ds b' /\ b_draws b' = b_draws b.
Proof.
  intros Hb. destruct (trim_normalized t) as [[f s]|] eqn:En.
  - destruct (trim_is_full f s) eqn:Ef.
    + exists b. rewrite (apply_trim_full E b t gs f s En Ef). auto.
    + destruct (apply_trim_partial E gs ds b t f s En Ef Hb) as (ps & b' & _ & H & I & D & _). eauto.
  - destruct (apply_trim_none E gs ds b t En Hb) as (b' & H & I & D & _). eauto.
Qed.

(** ** Shape trees *)
Lemma all_geometry_group P shs t : all_geometry P (ShGroup shs t) <-> Forall (all_geometry P) shs.
Proof.
  simpl. induction shs as [|s shs IH]; [split; auto|]. split.
  - intros [H1 H2]. constructor; auto. now apply IH.
  - intros H. inversion H; subst. split; auto. now apply IH.
Qed.

Lemma fold_shapes_inv (f : shape -> batch -> res batch) gs ds shs :
  (forall s b, In s shs -> binv gs ds b ->
     exists b', f s b = Ok b' /\ binv gs ds b' /\ firstn ds (b_draws b') = firstn ds (b_draws b)) ->
  forall b, binv gs ds b ->
  exists b', fold_shapes f shs b = Ok b' /\ binv gs ds b' /\ firstn ds (b_draws b') = firstn ds (b_draws b).
Proof.
  induction shs as [|s shs IH]; intros H b Hb; simpl; [eauto|].
  destruct (H s b) as (b1 & -> & I1 & D1); simpl; auto.
  destruct (IH (fun s' b' Hin => H s' b' (or_intror Hin)) b1 I1) as (b2 & H2 & I2 & D2).
  exists b2. split; [exact H2|]. split; auto. congruence.
Qed.
Lemma render_shape_inv E sh : all_geometry (sound_geometry E) sh ->
  forall tf alpha frame gs ds b, binv gs ds b ->
  exists b', render_shape E tf alpha frame gs ds sh b = Ok b' /\ binv gs ds b' /\
    firstn ds (b_draws b') = firstn ds (b_draws b).
Proof.
  induction sh using shape_ind'; intros Hs tf alpha frame gs ds b Hb.
  - apply all_geometry_group in Hs. simpl.
    destruct (fold_shapes_inv (render_shape E (affine_mul tf (fst (group_params E t frame)))
        (fmul alpha (snd (group_params E t frame))) frame (List.length (b_geoms b)) (List.length (b_draws b)))
        (List.length (b_geoms b)) (List.length (b_draws b)) shs) with (b := b) as (b' & H1 & I1 & D1).
    + intros s b0 Hin Hb0. rewrite Forall_forall in H, Hs. apply H; auto.
    + eapply binv_enter; eauto.
    + rewrite firstn_all in D1. exists b'. split; [exact H1|]. split; [now eapply binv_leave; eauto|].
      rewrite <- D1 at 1. rewrite firstn_firstn. rewrite Nat.min_l; [reflexivity|].
      apply (bi_ds _ _ _ Hb).
  - destruct (Hs frame) as (els & H1 & H2).
    destruct (push_geometry_inv E gs ds b g tf frame els H1 H2 Hb) as (b' & H3 & I3 & D3 & _).
    exists b'. simpl. rewrite D3. auto.
  - simpl. eexists. split; [reflexivity|]. split; [now apply push_draw_inv|]. simpl.
    rewrite firstn_app. replace (ds - List.length (b_draws b)) with 0 by (destruct Hb; lia).
    simpl. now rewrite app_nil_r.
  - simpl. rewrite (batch_repeat_eq E gs ds b _ Hb). eexists. split; [reflexivity|].
    eapply batch_repeat_inv; eauto. apply batch_repeat_eq; auto.
  - simpl. destruct (apply_trim_inv E gs ds b (trim_eval E t frame) Hb) as (b' & H1 & I1 & D1).
    exists b'. rewrite D1. auto.
Qed.
Lemma render_shapes_inv E shs tf alpha frame :
  Forall (all_geometry (sound_geometry E)) shs ->
  exists b, render_shapes E shs tf alpha frame batch_empty = Ok b /\ binv 0 0 b.
Proof.
  intros H. unfold render_shapes. simpl.
  destruct (fold_shapes_inv (render_shape E tf alpha frame 0 0) 0 0 shs) with (b := batch_empty)
    as (b & H1 & I1 & _).
  - intros s b0 Hin Hb0. rewrite Forall_forall in H. apply render_shape_inv; auto.
  - apply binv_empty.
  - eauto.
Qed.
(** What a batch paints. *)
Definition draw_paints (E : Ext) (b : batch) (d : draw_data) : list paint :=
  map (fun g => mkPaint (dd_stroke d) (gd_transform g) (draw_brush E d) (path_of (b_elements b) g))
      (firstn (dd_end d - dd_start d) (skipn (dd_start d) (b_geoms b))).
Lemma in_firstn A n (l : list A) x : In x (firstn n l) -> In x l.
Proof. intros H. rewrite <- (firstn_skipn n l). apply in_or_app. auto. Qed.
Lemma in_skipn A n (l : list A) x : In x (skipn n l) -> In x l.
Proof. intros H. rewrite <- (firstn_skipn n l). apply in_or_app. auto. Qed.
Lemma batch_render_eq E gs ds b : binv gs ds b ->
  batch_render E b = Ok (List.concat (map (draw_paints E b) (rev (b_draws b)))).
Proof.
  intros []. unfold batch_render. rewrite (mapM_ok _ _ _ (draw_paints E b)); [reflexivity|].
  intros d Hd. apply in_rev in Hd. rewrite Forall_forall in bi_draws0, bi_geoms0.
  unfold render_draw. rewrite slice_ok by (apply bi_draws0; auto). cbn [bind].
  apply mapM_ok. intros g Hg. rewrite geom_ok_slice; [reflexivity|].
  apply bi_geoms0. eapply in_skipn, in_firstn, Hg.
Qed.
