(** Rendering documents: every frame of an ordinary document is painted, and
    painted as the rules of FrameSpec.v say. *)
From Coq Require Import ZArith Bool List Arith String Lia Relation_Operators.
From Verif Require Import F64 Kurbo Value Animated Batch Render RenderSpec RenderFacts RenderFacts2 RenderFacts3
  BatchSpec BatchFacts BatchRefine BatchFacts2 FrameSpec Examples PropRender PropBatch PropFrame ValueSpec
  Schema Import ImportSpec ImportFacts ImportFacts3 ImportFacts4 DocExamples PropImport.
Import ListNotations.
Open Scope list_scope.
Open Scope nat_scope.

(** * Ordinary documents *)
Definition is_geometry (x : any_shape) : Prop :=
  match x with AsRectangle _ _ _ _ | AsEllipse _ _ _ | AsPolyStar _ _ _ _ _ _ _ _ _ | AsPath _ _ => True | _ => False end.
Definition is_style (x : any_shape) : Prop :=
  match x with AsFill _ _ _ | AsStroke _ _ _ | AsGradientFill _ _ _ | AsGradientStroke _ _ _ => True | _ => False end.
(** Transforms and shapes that velato does not support. *)
Definition is_other (x : any_shape) : Prop :=
  match x with
  | AsTransform _ | AsPuckerBloat _ _ | AsMerge _ _ | AsRepeater _ _ _ _ _ | AsOffsetPath _ _ _ _ | AsTwist _ _ _
  | AsRoundedCorners _ _ => True
  | _ => False
  end.
(** Reading a shape list from the top: [Free] at the start and after a style,
    [Down] after geometry, [Cut] after a trim of geometry.  A list is tidy if
    no group starts between geometry and its style, and no geometry follows a
    trim before the style does. *)
Inductive pen := Free | Down | Cut.
Inductive tidy : pen -> list any_shape -> pen -> Prop :=
| td_nil p : tidy p [] p
| td_geometry x l p q : is_geometry x -> p <> Cut -> tidy Down l q -> tidy p (x :: l) q
| td_style x l p q : is_style x -> tidy Free l q -> tidy p (x :: l) q
| td_trim m s e o mm l p q : tidy (match p with Free => Free | _ => Cut end) l q -> tidy p (AsTrim m s e o mm :: l) q
| td_other x l p q : is_other x -> tidy p l q -> tidy p (x :: l) q
| td_group ge np it cix l p q : tidy Free it p -> tidy p l q -> tidy Free (AsGroup ge np it cix :: l) q.
(** Stars, at any depth, have a fixed number of points that fits into memory. *)
Inductive stars_fit : any_shape -> Prop :=
| sf_group ge np it cix : (forall x, In x it -> stars_fit x) -> stars_fit (AsGroup ge np it cix)
| sf_star sh p or os r pt sy ir is n : ap_k pt = AkStatic n -> (f_to_usize (fround n) <= 96076792050570581)%Z ->
    stars_fit (AsPolyStar sh p or os r pt sy ir is)
| sf_leaf x : match x with AsGroup _ _ _ _ | AsPolyStar _ _ _ _ _ _ _ _ _ => False | _ => True end -> stars_fit x.
Definition shapes_of (l : any_layer) : list any_shape := match l with AlShape _ shs => shs | _ => [] end.
(** No layer uses itself through mattes and precompositions. *)
Definition no_self_reference (a : animation) : Prop := forall p, ~ clos_trans pos (src_refers a) p p.
Definition stars_fit_in (a : animation) : Prop :=
  forall s src x, In src (source_layers a s) -> In x (shapes_of src) -> stars_fit x.
Definition tidy_in (a : animation) : Prop :=
  forall s src, In src (source_layers a s) -> exists q, tidy Free (shapes_of src) q.
(** kurbo's rectangles and ellipses start with a move-to. *)
Definition kurbo_paths (E : Ext) : Prop :=
  (forall x0 y0 x1 y1 q, bezpath_ok (x_rrect_path E x0 y0 x1 y1 q) = true) /\
  (forall c rx ry, bezpath_ok (x_ellipse_path E c rx ry) = true).

(** * Soundness of what is imported *)
Scheme imports_mind := Induction for imports Sort Prop
with becomes_mind := Induction for becomes Sort Prop.
Combined Scheme import_mind from imports_mind, becomes_mind.

Lemma path_ok E p g : path_reads p g -> sound_geometry E g.
Proof.
  unfold path_reads. destruct (sp_k p) as [ks|b].
  - intros (s & -> & _). apply spline_sound.
  - intros (pts & els & -> & _ & H). apply fixed_sound. destruct (bz_v b); [now subst els|].
    destruct H as (body & _ & _ & H). destruct (bezier_closed b && (0 <? List.length pts / 3)).
    + destruct H as (e & _ & ->). reflexivity.
    + now subst els.
Qed.
Lemma group_geometry (P : geometry -> Prop) shs t : Forall (all_geometry P) shs -> all_geometry P (ShGroup shs t).
Proof. cbn [all_geometry]. induction 1; auto. Qed.

Section Sound.
  Variable E : Ext.
  Hypothesis K : kurbo_paths E.

  Lemma imported_sound :
    (forall l out, imports E l out -> (forall x, In x l -> stars_fit x) -> Forall (all_geometry (sound_geometry E)) out) /\
    (forall x s, becomes E x s -> stars_fit x -> all_geometry (sound_geometry E) s).
  Proof.
    apply (import_mind E (fun l out _ => (forall x, In x l -> stars_fit x) -> Forall (all_geometry (sound_geometry E)) out)
             (fun x s _ => stars_fit x -> all_geometry (sound_geometry E) s)); intros; try exact I.
    - constructor.
    - apply H. intros y Hy. apply H0. now right.
    - constructor; [apply H; apply H1; now left|]. apply H0. intros z Hz. apply H1. now right.
    - apply group_geometry. apply H. inversion H0; subst; [assumption|contradiction].
    - cbn. apply rect_sound. apply K.
    - cbn. apply ellipse_sound. apply K.
    - cbn. destruct s as (st & _ & _ & _ & _ & _ & Rp & _ & _ & Ev). inversion H; subst; [|contradiction].
      match goal with Kp : ap_k _ = _, Nn : (_ <= _)%Z |- _ => rename Kp into Hk; rename Nn into Hn end.
      unfold scalar_reads in Rp. rewrite Hk in Rp.
      assert (Sd : sound_geometry E (GStar st)).
      { apply star_sound. intros fr. rewrite Rp. exact Hn. }
      intros fr. rewrite Ev. apply (Sd fr).
    - cbn. eapply path_ok; eauto.
  Qed.
  Lemma masks_ok l out : masks_read l out ->
    Forall (fun m => forall frame, geometry_eval E (mk_geometry m) frame <> Panic) out.
  Proof.
    induction 1 as [|m l out _ _ IH|m k l out _ [(p & _ & R) _] _ IH]; auto. constructor; [|exact IH].
    intros fr. destruct (path_ok E _ _ R fr) as (els & -> & _). discriminate.
  Qed.

  Variable a : animation.
  Variable c : composition.
  Hypothesis Im : conv_animation E a = Ok c.

  Lemma layer_shapes s i ly shs : nth_error (scope_layers c s) i = Some ly -> ly_content ly = CShape shs ->
    exists src, In src (source_layers a s) /\ imports E (shapes_of src) shs.
  Proof.
    intros Hl Hc. destruct (scope_source _ _ _ _ _ _ Im Hl) as (src & Hs & L).
    assert (Nh : ~ src_hidden src) by (intros Hh; rewrite (lr_hidden _ _ _ _ _ L Hh) in Hc; discriminate).
    pose proof (lr_content _ _ _ _ _ L Nh) as C. rewrite Hc in C. apply nth_error_In in Hs.
    exists src. split; [exact Hs|]. destruct src; cbn in C; try discriminate.
    - destruct C as (x & ? & _). discriminate.
    - destruct C as (out & [= ->] & C). exact C.
  Qed.
  Lemma scope_sound s : stars_fit_in a -> Forall (sound_layer E) (scope_layers c s).
  Proof.
    intros F. apply Forall_forall. intros ly Hin. apply In_nth_error in Hin as (i & Hi). split.
    - destruct (scope_source _ _ _ _ _ _ Im Hi) as (src & Hs & L).
      eapply masks_ok. apply (br_masks _ _ _ (lr_base _ _ _ _ _ L)).
    - destruct (ly_content ly) as [| |shs] eqn:Hc; auto.
      destruct (layer_shapes s i ly shs Hi Hc) as (src & Hs & R).
      eapply (proj1 imported_sound); [exact R|]. intros x Hx. now apply (F s src).
  Qed.
End Sound.

(** The assets of a composition have different names. *)
Lemma conv_assets_unique E : forall l m m', conv_assets E l m = Ok m' ->
  NoDup (map fst m) -> NoDup (map fst m').
Proof.
  induction l as [|x l IH]; intros m m' H N; cbn in H; [now injection H as <-|].
  destruct x as [fa sl w h t|ass layers fr xt]; [discriminate|].
  destruct (process_layers E layers) as [lys| |]; cbn in H; try discriminate.
  apply IH in H; [exact H|]. unfold asset_insert. cbn [map fst]. constructor.
  - intros Hin. apply in_map_iff in Hin as ([k v] & Hk & Hf). apply filter_In in Hf as [_ Hf]. cbn in Hk, Hf.
    subst k. now rewrite String.eqb_refl in Hf.
  - clear H. induction m as [|[k v] m IHm]; [constructor|]. cbn in N. inversion N; subst. cbn.
    destruct (negb (String.eqb k (ass_id ass))); [|auto]. cbn. constructor; [|auto].
    intros Hin. apply in_map_iff in Hin as (z & Hz & Hf). apply filter_In in Hf as [Hf _].
    apply H1. rewrite <- Hz. now apply in_map.
Qed.
Lemma find_unique (m : list (string * list layer)) n ls : NoDup (map fst m) -> In (n, ls) m ->
  find (fun p => String.eqb (fst p) n) m = Some (n, ls).
Proof.
  induction m as [|[k v] m IH]; [intros _ []|]. cbn. intros N Hin. inversion N; subst.
  destruct Hin as [[= -> ->]|Hin]; [now rewrite String.eqb_refl|].
  destruct (String.eqb_spec k n) as [->|_]; [|auto]. exfalso. apply H1. now apply (in_map fst) in Hin.
Qed.
Lemma document_sound E a c : kurbo_paths E -> conv_animation E a = Ok c -> stars_fit_in a -> sound_comp E c.
Proof.
  intros K H F. split; [exact (scope_sound E K a c H None F)|].
  apply Forall_forall. intros [n ls] Hin. cbn.
  assert (U : NoDup (map fst (co_assets c))).
  { unfold conv_animation in H. destruct (conv_assets E _ []) as [m| |] eqn:A in H; cbn in H; try discriminate.
    destruct (process_layers E _) in H; cbn in H; try discriminate. injection H as <-. cbn.
    eapply conv_assets_unique; [exact A|constructor]. }
  pose proof (scope_sound E K a c H (Some n) F) as S. cbn [scope_layers] in S. unfold find_asset in S.
  rewrite (find_unique _ _ _ U Hin) in S. exact S.
Qed.

(** * Tidy shape lists do not clash *)
Definition held (p : pen) (s : pending) : Prop :=
  match p with
  | Free => s = None
  | Down => s = None \/ exists a, s = Some (a, 0, false)
  | Cut => s = None \/ exists a x, s = Some (a, 0, x)
  end.
Lemma held_none p : held p None.
Proof. destruct p; cbn; auto. Qed.
Lemma advance_app ts ts' s : advance_all s (ts ++ ts') =
  match advance_all s ts with Some s => advance_all s ts' | None => None end.
Proof. revert s. induction ts as [|t ts IH]; intros s; cbn; [reflexivity|]. destruct (advance s t); auto. Qed.

Definition keeps (E : Ext) (p q : pen) (f : affine -> list token) : Prop :=
  forall tf s, held p s -> exists s', advance_all s (f tf) = Some s' /\ held q s'.
Lemma geometry_keeps E p : p <> Cut -> keeps E p Down (fun tf => [TPath tf]).
Proof.
  intros Np tf s H. assert (Hs : s = None \/ exists a, s = Some (a, 0, false)).
  { destruct p; cbn in H; auto. now destruct Np. }
  destruct Hs as [->|(a & ->)]; cbn.
  - eexists. split; [reflexivity|]. right. eauto.
  - destruct (affine_eqb a tf); cbn; eexists; (split; [reflexivity|]); right; eauto.
Qed.
Lemma style_keeps E p : keeps E p Free (fun _ => [TUse]).
Proof. intros tf s _. exists None. split; [|reflexivity]. destruct s as [[[? ?] ?]|]; reflexivity. Qed.
Lemma trim_keeps E p t frame : keeps E p (match p with Free => Free | _ => Cut end) (fun tf => tokens E frame tf (ShTrim t)).
Proof.
  intros tf s H. cbn [tokens].
  assert (Hs : held (match p with Free => Free | _ => Cut end) s).
  { destruct p; cbn in *; auto. destruct H as [H|(a & H)]; eauto. }
  assert (Hs' : s = None \/ p <> Free /\ exists a x, s = Some (a, 0, x)).
  { destruct p; cbn in H; auto; destruct H as [H|H]; auto; right; (split; [discriminate|]);
      [destruct H as (a & H)|destruct H as (a & x & H)]; eauto. }
  destruct (trim_normalized _) as [[f e]|]; [destruct (trim_is_full f e); [exists s; auto|]|].
  - destruct Hs' as [->|(Np & a & x & ->)]; cbn; (eexists; split; [reflexivity|]); [apply held_none|].
    destruct p; [now destruct Np| |]; right; eauto.
  - destruct Hs' as [->|(Np & a & x & ->)]; cbn; (eexists; split; [reflexivity|]); [apply held_none|].
    destruct p; [now destruct Np| |]; right; eauto.
Qed.

(** What one imported shape does to the state, in terms of its source. *)
Inductive step : any_shape -> pen -> pen -> Prop :=
| st_geometry x p : is_geometry x -> p <> Cut -> step x p Down
| st_style x p : is_style x -> step x p Free
| st_trim m s e o mm p : step (AsTrim m s e o mm) p (match p with Free => Free | _ => Cut end)
| st_other x p : is_other x -> step x p p
| st_group ge np it cix p : tidy Free it p -> step (AsGroup ge np it cix) Free p.
Lemma tidy_step x l p q : tidy p (x :: l) q -> exists m, step x p m /\ tidy m l q.
Proof. intros H. inversion H; subst; eexists; (split; [|eassumption]); econstructor; eauto. Qed.
Lemma step_drop x p q s : ~ yields x -> step x p q -> held p s -> held q s.
Proof.
  intros N St H. destruct St as [x p G Np|x p G|m s0 e o mm p|x p G|ge np it cix p G].
  - destruct p; cbn in *; auto. now destruct Np.
  - exfalso. apply N. destruct x; try contradiction; constructor.
  - exfalso. apply N. constructor.
  - exact H.
  - cbn in H. subst s. apply held_none.
Qed.
Lemma imported_keeps E frame :
  (forall l out, imports E l out -> forall p q, tidy p l q -> keeps E p q (fun tf => flat_map (tokens E frame tf) out)) /\
  (forall x s, becomes E x s -> forall p q, step x p q -> keeps E p q (fun tf => tokens E frame tf s)).
Proof.
  apply (import_mind E (fun l out _ => forall p q, tidy p l q -> keeps E p q (fun tf => flat_map (tokens E frame tf) out))
           (fun x s _ => forall p q, step x p q -> keeps E p q (fun tf => tokens E frame tf s))).
  - intros p q T tf s H. inversion T; subst. exists s. auto.
  - intros x l out Ny _ IH p q T tf s H. apply tidy_step in T as (m & T1 & T2).
    apply (IH m q T2). eapply step_drop; eauto.
  - intros x sh l out _ _ IHx _ IH p q T tf s H. apply tidy_step in T as (m & T1 & T2).
    destruct (IHx p m T1 tf s H) as (s' & A1 & H'). destruct (IH m q T2 tf s' H') as (s'' & A2 & H'').
    exists s''. split; [|exact H'']. cbn [flat_map]. now rewrite advance_app, A1.
  - intros ge np it cix shapes t gt _ IH _ _ p q T tf s H. inversion T; subst; try contradiction.
    cbn in H. subst s. cbn [tokens advance_all advance].
    match goal with Td : tidy Free it q |- _ =>
      destruct (IH _ _ Td (affine_mul tf (group_tf E gt frame)) None eq_refl) as (s' & A1 & H') end.
    rewrite advance_app, A1. exists s'. split; [|exact H']. cbn.
    destruct q; cbn in H'; [subst s'; reflexivity| |].
    + destruct H' as [->|(a & ->)]; reflexivity.
    + destruct H' as [->|(a & y & ->)]; reflexivity.
  - intros st c r d _ _ _ p q T. inversion T; subst; try contradiction. apply style_keeps.
  - intros st bs c d s _ _ _ _ p q T. inversion T; subst; try contradiction. apply style_keeps.
  - intros st g r d _ _ _ p q T. inversion T; subst; try contradiction. apply style_keeps.
  - intros st bs g d s _ _ _ _ p q T. inversion T; subst; try contradiction. apply style_keeps.
  - intros sh p0 s r g _ _ _ p q T. inversion T; subst; try contradiction. now apply geometry_keeps.
  - intros sh p0 s g _ _ p q T. inversion T; subst; try contradiction. now apply geometry_keeps.
  - intros sh p0 or os r pt sy ir is g _ p q T. inversion T; subst; try contradiction. now apply geometry_keeps.
  - intros sh ks g _ p q T. inversion T; subst; try contradiction. now apply geometry_keeps.
  - intros m s e o mm t vs ve vo _ _ _ _ p q T. inversion T; subst; try contradiction. apply trim_keeps.
Qed.
Lemma document_clash E a c : conv_animation E a = Ok c -> tidy_in a -> never_clash E c.
Proof.
  intros H T [s i] ly shs Hl Hc frame tf. unfold layer_at in Hl. cbn [fst snd] in Hl.
  destruct (layer_shapes E a c H s i ly shs Hl Hc) as (src & Hs & R). destruct (T s src Hs) as (q & Tq).
  destruct (proj1 (imported_keeps E frame) _ _ R _ _ Tq tf None eq_refl) as (s' & A & _).
  unfold no_clash. rewrite A. discriminate.
Qed.
Lemma document_acyclic E a c : conv_animation E a = Ok c -> no_self_reference a -> acyclic c.
Proof.
  intros H N p P. apply (N p). eapply clos_trans_sub; [|exact P]. intros x y. now apply (refers_src E a c).
Qed.

(** * C68 *)
(** Rendering a supported document without self-references and with stars of
    bounded size never crashes and always ends. *)
Theorem C68_never_crashes : forall E a, kurbo_paths E -> animation_supported a -> no_self_reference a -> stars_fit_in a ->
  exists c, conv_animation E a = Ok c /\
    forall frame tf alpha r, used r -> exists es, append_draws E c frame tf alpha r es.
Proof.
  intros E a K S N F. destruct (proj2 (proj1 (C38_supported E a)) S) as (c & H). exists c. split; [exact H|].
  intros frame tf alpha r U. pose proof (document_sound E a c K H F) as Sd.
  destruct (C10_terminates E c frame tf alpha r (document_acyclic E a c H N)) as (fuel & T & _).
  pose proof (C13_no_panic E fuel c frame tf alpha r U Sd) as P.
  exists (events (append E fuel c frame tf alpha r)). exists fuel. split; [|reflexivity].
  destruct (r_out (append E fuel c frame tf alpha r)) as [[]| |]; congruence.
Qed.
(** If the shape lists are tidy too, every frame is the picture of FrameSpec.v. *)
Theorem C68_every_frame : forall E a, kurbo_paths E -> animation_supported a -> no_self_reference a ->
  stars_fit_in a -> tidy_in a ->
  exists c, conv_animation E a = Ok c /\
    forall frame tf alpha r, used r -> exists es, append_draws E c frame tf alpha r es /\
      forall es', frame_picture E c frame tf alpha es' <-> es' = es.
Proof.
  intros E a K S N F T. destruct (C68_never_crashes E a K S N F) as (c & H & R). exists c. split; [exact H|].
  intros frame tf alpha r U. destruct (R frame tf alpha r U) as (es & D). exists es. split; [exact D|].
  pose proof (document_sound E a c K H F) as Sd. pose proof (document_clash E a c H T) as Nc.
  apply (C67_reference E c frame tf alpha r es Sd Nc U) in D. intros es'. split.
  - intros D'. eapply C67_unique; eauto.
  - now intros ->.
Qed.
(** A way to see that a document does not refer to itself. *)
Lemma ranked a (rank : option string -> nat) :
  (forall s src, In src (source_layers a s) -> vl_tp (visual_of src) = None) ->
  (forall s vl name w h st tm, In (AlPrecomp vl name w h st tm) (source_layers a s) ->
     rank (Some name) < rank s) -> no_self_reference a.
Proof.
  intros Tp Rk.
  assert (R : forall p q, src_refers a p q ->
            rank (fst q) < rank (fst p) \/ fst q = fst p /\ snd q < snd p).
  { intros p q R. destruct R as [s i k src Hs _ F|s i j vl name w h st tm Hs _ _]; cbn.
    - right. split; [reflexivity|]. unfold matte_for, matte_target in F.
      rewrite (Tp s src) in F by (eapply nth_error_In; eauto). apply F.
    - left. eapply Rk. eapply nth_error_In; eauto. }
  assert (T : forall p q, clos_trans pos (src_refers a) p q ->
            rank (fst q) < rank (fst p) \/ fst q = fst p /\ snd q < snd p).
  { induction 1 as [|x y z _ [A|[A1 A2]] _ [B|[B1 B2]]]; [now apply R| | | |].
    - left. lia. - left. rewrite B1. exact A. - left. rewrite <- A1. exact B. - right. split; [congruence|lia]. }
  intros p P. apply T in P. lia.
Qed.
(** A document with a matte, a precomposition, a moving star, a trimmed path
    and nested groups. *)
Definition star_of (n : Z) : any_shape :=
  AsPolyStar (mkSShape no_ge None) (p_static 5 5) (animated [kf 0 [f1]; kf 30 [f_of_Z 9]]) (st f0) (st f0) (st (f_of_Z n)) StStar
    (Some (st f1)) (Some (st f0)).
Definition wedge : any_shape :=
  AsPath (mkSShape no_ge None)
    (mkShapeProp None None None
      (SkStatic (mkBezier (Some true) [(f0, f0); (f1, f0); (f0, f1)] [(f0, f0); (f0, f0); (f0, f0)]
                          [(f0, f0); (f0, f0); (f0, f0)]))).
Definition half : any_shape := AsTrim no_ge (st f0) (st (f_of_Z 50)) (st f0) None.
Definition doc_tidy : animation :=
  doc [AaPrecomp (mkAsset "pre" no_vo)
         [AlShape (visual (base "a" (Some 1) None None) (tr_pos 0 0) None None None)
            [group_of [rect_at 1 1; wedge; half; tr_shape 1 0]; fill_in no_ge]] None None]
      [AlShape (visual (base "matte" (Some 1) None None) (tr_pos 1 2) None (Some BITrue) None) [star_of 5; fill_in no_ge];
       AlPrecomp (visual (base "inst" (Some 4) (Some 2) None) (tr_pos 0 0) (Some MmAlpha) None None) "pre"
         (f_of_Z 100) (f_of_Z 100) f0 None].
Example C68_applies : kurbo_paths E0 /\ animation_supported doc_tidy /\ no_self_reference doc_tidy /\
  stars_fit_in doc_tidy /\ tidy_in doc_tidy.
Proof.
  split; [split; reflexivity|].
  split; [apply (proj1 (C38_supported E0 doc_tidy)); apply is_ok_ex; vm_compute; reflexivity|].
  split; [|split].
  - apply (ranked _ (fun s => match s with None => 1 | Some _ => 0 end)).
    + intros [n|] src; unfold source_layers; cbn [assets_of doc_tidy doc ani_assets asset_layers ani_layers ass_id].
      * destruct (String.eqb "pre" n); [intros [<-|[]]; reflexivity|intros []].
      * intros [<-|[<-|[]]]; reflexivity.
    + intros [n|] vl name w h st tm; unfold source_layers;
        cbn [assets_of doc_tidy doc ani_assets asset_layers ani_layers ass_id].
      * destruct (String.eqb "pre" n); [intros [X|[]]; discriminate|intros []].
      * intros [X|[X|[]]]; [discriminate|lia].
  - intros [n|] src x; unfold source_layers; cbn [assets_of doc_tidy doc ani_assets asset_layers ani_layers ass_id].
    + destruct (String.eqb "pre" n); [|intros []]. intros [<-|[]] [<-|[<-|[]]]; [|now constructor].
      apply sf_group. intros y [<-|[<-|[<-|[<-|[]]]]]; now constructor.
    + intros [<-|[<-|[]]]; [|intros []]. intros [<-|[<-|[]]]; [|now constructor].
      eapply sf_star; [reflexivity|vm_compute; discriminate].
  - intros [n|] src; unfold source_layers; cbn [assets_of doc_tidy doc ani_assets asset_layers ani_layers ass_id].
    + destruct (String.eqb "pre" n); [|intros []]. intros [<-|[]]. exists Free. cbn [shapes_of].
      eapply (td_group _ _ _ _ _ Cut).
      * apply td_geometry; [exact I|discriminate|]. apply td_geometry; [exact I|discriminate|].
        apply td_trim. apply td_other; [exact I|]. constructor.
      * apply td_style; [exact I|]. constructor.
    + intros [<-|[<-|[]]]; exists Free; [|constructor]. cbn [shapes_of].
      apply td_geometry; [exact I|discriminate|]. apply td_style; [exact I|]. constructor.
Qed.
