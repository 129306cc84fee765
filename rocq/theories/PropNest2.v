(** C82 without the condition that shape lists are tidy: what is painted is where
    the document puts it. *)
From Coq Require Import ZArith Reals Bool List Arith String Lia Lra.
From Flocq Require Import Core BinarySingleNaN.
From Verif Require Import PropMerge PropLook.
From Verif Require Import F64 F64Facts Kurbo Value Animated Batch Render RenderSpec RenderFacts RenderFacts3 BatchSpec FrameSpec LookSpec
  GeometrySpec PropGeometry Schema Import TimelineSpec ImportSpec ImportFacts3 ImportFacts4 PropRender PropBatch PropFrame PropImport PropImport2
  PropDocument FamilySpec DocExamples PropFamily NestSpec NestFacts PropStar PropNest.
Import ListNotations.
Close Scope string_scope.
Open Scope list_scope.
Open Scope R_scope.

(** * Shapes *)
Section Kept.
  Variable E : Ext.
  Variable view : affine.
  Variable alpha0 : f64.
  Variable t : f64.
  Hypothesis A : accurate E.
  Definition mark_in (R : list (option s_transform) -> any_shape -> Prop) (levels : list level) (m : path_el * affine) : Prop :=
    exists groups x, R groups x /\ piece_of E x t (fst m) /\ stands E view (group_levels t groups ++ levels) (snd m).
  Lemma mark_mono (R S : list (option s_transform) -> any_shape -> Prop) levels m : (forall g x, R g x -> S g x) -> mark_in R levels m -> mark_in S levels m.
  Proof. intros H (g & x & H1 & H2). exists g, x. auto. Qed.
  Lemma mark_lift (R S : list (option s_transform) -> any_shape -> Prop) levels tr m :
    (forall g x, R g x -> S (g ++ [option_map trs_t tr]) x) ->
    mark_in R ((option_map trs_t tr, t) :: levels) m -> mark_in S levels m.
  Proof. intros H (g & x & H1 & H2 & H3). rewrite levels_lift in H3. exists (g ++ [option_map trs_t tr]), x. auto. Qed.
  Lemma place_mark x g levels tf m : becomes E x (ShGeometry g) -> stands E view levels tf -> In m (BatchSpec.place tf (path_at E g t)) -> mark_in (item_in [x]) levels m.
  Proof.
    intros B S H. unfold BatchSpec.place in H. apply in_map_iff in H as (e & <- & He). exists [], x. split; [apply item_here; now left|].
    split; [exists g; auto|exact S].
  Qed.
  Lemma item_cons l x z g : item_in l g x -> item_in (z :: l) g x.
  Proof. intros H. inversion H; subst; [apply item_here; now right|eapply item_group; [right; eassumption|eassumption|eassumption]]. Qed.
  Lemma item_one x l g y : In x l -> item_in [x] g y -> item_in l g y.
  Proof. intros H K. inversion K as [? ? Hx|? ? ? ? ? ? ? ? Hx Lt K']; subst; destruct Hx as [Eq|[]]; subst; [now apply item_here|eapply item_group; eassumption]. Qed.
  Lemma marks_app a b : marks_of (a ++ b) = marks_of a ++ marks_of b.
  Proof. apply flat_map_app. Qed.
  Lemma events_items :
    (forall l out, imports E l out -> forall levels tf, stands E view levels tf ->
       forall m, In m (marks_of (flat_map (events_in E t tf) out)) -> mark_in (item_in l) levels m) /\
    (forall x s, becomes E x s -> forall levels tf, stands E view levels tf ->
       forall m, In m (marks_of (events_in E t tf s)) -> mark_in (item_in [x]) levels m).
  Proof.
    apply (import_mind E
      (fun l out _ => forall levels tf, stands E view levels tf ->
         forall m, In m (marks_of (flat_map (events_in E t tf) out)) -> mark_in (item_in l) levels m)
      (fun x s _ => forall levels tf, stands E view levels tf ->
         forall m, In m (marks_of (events_in E t tf s)) -> mark_in (item_in [x]) levels m)); try (intros; contradiction).
    - intros x l out _ _ IH levels tf S m H. eapply mark_mono; [|eapply IH; eauto]. intros. now apply item_cons.
    - intros x s l out _ _ IHx _ IH levels tf S m H. cbn [flat_map] in H. rewrite marks_app in H. apply in_app_or in H as [H|H].
      + eapply mark_mono; [|eapply IHx; eauto]. intros g y. apply item_one. now left.
      + eapply mark_mono; [|eapply IH; eauto]. intros. now apply item_cons.
    - intros ge np it cix shapes tr gt Im IH Lt Gt levels tf S m H. cbn [events_in] in H.
      assert (B : becomes E (AsGroup ge np it cix) (ShGroup shapes gt)) by (eapply bec_group; eauto).
      eapply mark_lift; [|eapply IH; [eapply stands_group; eauto|exact H]].
      intros g x K. eapply item_group; [now left|exact Lt|exact K].
    - intros sh p0 s r g R1 R2 R3 levels tf S m H. cbn [events_in marks_of flat_map] in H. rewrite app_nil_r in H. apply (place_mark _ (GRect g) levels tf); auto. now constructor.
    - intros sh p0 s g R1 R2 levels tf S m H. cbn [events_in marks_of flat_map] in H. rewrite app_nil_r in H. apply (place_mark _ (GEllipse g) levels tf); auto. now constructor.
    - intros sh p0 or os r pt sy ir is g R levels tf S m H. cbn [events_in marks_of flat_map] in H. rewrite app_nil_r in H. apply (place_mark _ g levels tf); auto. now constructor.
    - intros sh ks g R levels tf S m H. cbn [events_in marks_of flat_map] in H. rewrite app_nil_r in H. apply (place_mark _ g levels tf); auto. now constructor.
  Qed.
  Definition kept_well (items : list any_shape) (levels shades : list level) (d : style * marks) : Prop :=
    exists sg y, styled E alpha0 t sg y shades (fst d) /\ forall m, In m (snd d) -> mark_in (fun g x => inks items g x sg y) levels m.
  Lemma kept_more l z levels shades d : kept_well l levels shades d -> kept_well (l ++ z) levels shades d.
  Proof.
    intros (sg & y & H1 & H2). exists sg, y. split; [exact H1|]. intros m Hm. eapply mark_mono; [|apply H2, Hm].
    intros g x. apply inks_more.
  Qed.
  Lemma kept_draw done levels shades al lost front y d : style_item y -> becomes E y (ShDraw d) -> dims E alpha0 shades al ->
    (forall m, In m (marks_of front) -> mark_in (item_in done) levels m) ->
    kept_well (done ++ [y]) levels shades (style_of E d al t, skipn lost (marks_of front)).
  Proof.
    intros Sy B D F. exists [], y. split; [exists d, al; auto|]. cbn [snd]. intros m Hm.
    assert (Hm' : In m (marks_of front)) by (rewrite <- (firstn_skipn lost); apply in_or_app; now right).
    eapply mark_mono; [|apply F, Hm']. intros g x K. now apply inks_here.
  Qed.
  Lemma kept_items :
    (forall l out, imports E l out -> forall done levels shades tf al before lost front, stands E view levels tf -> dims E alpha0 shades al ->
       (forall m, In m (marks_of front) -> mark_in (item_in done) levels m) ->
       forall d, In d (kept_among (draws_kept E t tf al before lost) (events_in E t tf) front out) -> kept_well (done ++ l) levels shades d) /\
    (forall x s, becomes E x s -> forall done levels shades tf al before lost front, stands E view levels tf -> dims E alpha0 shades al ->
       (forall m, In m (marks_of front) -> mark_in (item_in done) levels m) ->
       forall d, In d (draws_kept E t tf al before lost front s) -> kept_well (done ++ [x]) levels shades d).
  Proof.
    apply (import_mind E
      (fun l out _ => forall done levels shades tf al before lost front, stands E view levels tf -> dims E alpha0 shades al ->
         (forall m, In m (marks_of front) -> mark_in (item_in done) levels m) ->
         forall d, In d (kept_among (draws_kept E t tf al before lost) (events_in E t tf) front out) -> kept_well (done ++ l) levels shades d)
      (fun x s _ => forall done levels shades tf al before lost front, stands E view levels tf -> dims E alpha0 shades al ->
         (forall m, In m (marks_of front) -> mark_in (item_in done) levels m) ->
         forall d, In d (draws_kept E t tf al before lost front s) -> kept_well (done ++ [x]) levels shades d)); try (intros; contradiction).
    - intros x l out _ _ IH done levels shades tf al before lost front S D F d Hd.
      replace (done ++ x :: l) with ((done ++ [x]) ++ l) by (now rewrite <- app_assoc).
      eapply IH; eauto. intros m Hm. eapply mark_mono; [|apply F, Hm]. intros. now apply item_more.
    - intros x s l out _ Bx IHx Hl IH done levels shades tf al before lost front S D F d Hd.
      replace (done ++ x :: l) with ((done ++ [x]) ++ l) by (now rewrite <- app_assoc).
      cbn [kept_among] in Hd. apply in_app_or in Hd as [Hd|Hd].
      + apply kept_more. eapply IHx; eauto.
      + eapply IH; [| | |exact Hd]; eauto. intros m Hm. rewrite marks_app in Hm. apply in_app_or in Hm as [Hm|Hm].
        * eapply mark_mono; [|apply F, Hm]. intros. now apply item_more.
        * eapply mark_mono; [|eapply (proj2 events_items); eauto]. intros g y. apply item_one. apply in_or_app. right. now left.
    - intros ge np it cix shapes tr gt Im IH Lt Gt done levels shades tf al before lost front S D F d Hd. cbn [draws_kept] in Hd.
      assert (B : becomes E (AsGroup ge np it cix) (ShGroup shapes gt)) by (eapply bec_group; eauto).
      destruct (IH [] ((option_map trs_t tr, t) :: levels) ((option_map trs_t tr, t) :: shades) _ _ _ _ []
        ltac:(eapply stands_group; eauto) ltac:(eapply dims_group; eauto) ltac:(intros m []) d Hd) as (sg & y & H1 & H2).
      exists (sg ++ [option_map trs_t tr]), y. split; [now apply styled_lift|]. intros m Hm. eapply mark_lift; [|apply H2, Hm].
      intros g x K. eapply inks_group; [apply in_or_app; right; now left|exact Lt|exact K].
    - intros st c r d R1 R2 R3 done levels shades tf al before lost front S D F d' [<-|[]]. eapply kept_draw; eauto; [exact I|]. now constructor.
    - intros st bs c d s R1 R2 R3 R4 done levels shades tf al before lost front S D F d' [<-|[]]. eapply kept_draw; eauto; [exact I|]. econstructor; eauto.
    - intros st g r d R1 R2 R3 done levels shades tf al before lost front S D F d' [<-|[]]. eapply kept_draw; eauto; [exact I|]. now constructor.
    - intros st bs g d s R1 R2 R3 R4 done levels shades tf al before lost front S D F d' [<-|[]]. eapply kept_draw; eauto; [exact I|]. econstructor; eauto.
  Qed.
End Kept.

Section Frames2.
  Variable E : Ext.
  Variable a : animation.
  Variable c : composition.
  Variable view : affine.
  Variable alpha0 : f64.
  Variable now : f64.
  Hypothesis A : accurate E.
  Hypothesis Im : conv_animation E a = Ok c.

  Lemma content_items src ly i s shs : layer_reads E (source_layers a s) i src ly -> ly_content ly = CShape shs ->
    ~ src_hidden src /\ imports E (items src) shs.
  Proof.
    intros L Hc.
    assert (Nh : ~ src_hidden src) by (intros Hh; rewrite (lr_hidden _ _ _ _ _ L Hh) in Hc; discriminate).
    split; [exact Nh|]. pose proof (lr_content _ _ _ _ _ L Nh) as C. rewrite Hc in C.
    destruct src; cbn in C; try discriminate; [destruct C as (x & C & _); discriminate|]. destruct C as (out & [= ->] & C). exact C.
  Qed.
  Lemma active_window src ly i s t : layer_reads E (source_layers a s) i src ly -> active ly t <->
    fleb (sl_ip (base_of src)) t = true /\ fltb t (sl_op (base_of src)) = true.
  Proof. intros L. unfold active. now rewrite (br_in _ _ _ (lr_base _ _ _ _ _ L)), (br_out _ _ _ (lr_base _ _ _ _ _ L)). Qed.
  Lemma inside_time src ly i s t : layer_reads E (source_layers a s) i src ly -> inner_time ly t = time_inside src t.
  Proof. intros L. unfold inner_time, time_inside. now rewrite (br_stretch _ _ _ (lr_base _ _ _ _ _ L)), (br_start _ _ _ (lr_base _ _ _ _ _ L)). Qed.
  (** ** Nothing else is painted *)
  Section Sound.
  Hypothesis Pe : parents_end a.
  Definition placed (e : event) : Prop :=
    match e with
    | EvDraw p => pt_path p <> [] -> clear_in a -> painted E a now view alpha0 p
    | EvPushClip m (SkPath els) => clipped E a now view m els
    | _ => True
    end.
  Lemma shows_painted s l t levels shades tf al shs ps : In l (source_layers a s) -> layer_shown a now l t levels shades -> ~ src_hidden l ->
    imports E (items l) shs -> stands E view levels tf -> dims E alpha0 shades al -> shows E tf al t shs ps -> Forall placed (map EvDraw ps).
  Proof.
    intros Hl Sh Nh R S D [P1 P2]. apply Forall_forall. intros e He. apply in_map_iff in He as (q & <- & Hq). intros Nq Cl.
    assert (It : items l = shapes_of l) by (destruct l; reflexivity).
    destruct (Cl s l Hl) as [Un|(pen & Td)].
    - assert (Pl : Forall plain shs) by (apply (proj1 (imported_plain E) _ _ R); now rewrite It).
      destruct (P1 Pl) as (calls & -> & F). apply in_concat in Hq as (ps & Hps & Hq). apply in_rev in Hps.
      destruct (Forall2_In_r _ _ _ _ F Hps) as (d & Hd & [St Mk]).
      destruct (proj1 (kept_items E view alpha0 t A) _ _ R [] levels shades tf al [] 0%nat [] S D ltac:(intros m []) d Hd) as (sg & y & (dr & al' & B & D' & Es) & F').
      cbn [app] in F'. rewrite Forall_forall in St. destruct (St q Hq) as [St1 St2].
      assert (Pc : forall e, In e (pt_path q) -> exists groups z, inks (items l) groups z sg y /\ piece_of E z t e /\
                sits_through E (1 / 100) view (group_levels t groups ++ levels) (pt_transform q)).
      { intros e He. assert (Hm : In (e, pt_transform q) (flat_map (fun p => BatchSpec.place (pt_transform p) (pt_path p)) ps)).
        { apply in_flat_map. exists q. split; [exact Hq|]. unfold BatchSpec.place. now apply (in_map (fun e => (e, pt_transform q))). }
        assert (X : exists n, In n (snd d) /\ e = fst n /\ same_place (pt_transform q) (snd n)).
        { clear - Mk Hm. induction Mk as [|m n u v [H1 H2] _ IH]; [destruct Hm|]. destruct Hm as [->|Hm]; [exists n; split; [now left|now split]|].
          destruct (IH Hm) as (n' & K1 & K2). exists n'. split; [now right|exact K2]. }
        destruct X as (n & Hn & -> & Sp). destruct (F' n Hn) as (groups & z & K1 & K2 & K3). exists groups, z. split; [exact K1|]. split; [exact K2|].
        eapply stands_sits; eauto. }
      exists l, t, levels, shades, sg, y, (fdiv (fmul al' (eval E (dr_opacity dr) t)) f100).
      split; [exact Sh|]. split; [exact Nh|]. split; [now apply dims_shines|]. split.
      { exists dr. split; [exact B|]. rewrite St1, St2, Es. split; reflexivity. }
      split; [|intros _; exact Pc].
      destruct (pt_path q) as [|e els]; [now elim Nq|]. destruct (Pc e (or_introl eq_refl)) as (groups & z & K1 & (g & K2 & _) & K3).
      exists groups, z. split; [exact K1|]. split; [|exact K3]. inversion K2; exact I.
    - destruct (P2) as (pc & Hp & ->).
      { rewrite <- It in Td. destruct (proj1 (imported_keeps E t) _ _ R _ _ Td tf None eq_refl) as (s' & K & _).
        unfold no_clash. rewrite K. discriminate. }
      pose proof (picture_painted E a view alpha0 now A l t levels shades tf al shs pc Sh Nh R S D Hp) as G.
      rewrite Forall_forall in G. apply (G (EvDraw q)). now apply in_map.
  Qed.
  Lemma Forall_silent (l : list event) : (forall e, In e l -> match e with EvDraw _ | EvPushClip _ (SkPath _) => False | _ => True end) -> Forall placed l.
  Proof. intros H. apply Forall_forall. intros e He. specialize (H e He). destruct e as [|? []| | | |]; try contradiction; exact I. Qed.
  Lemma look_placed :
    (forall set ly idx outer alpha frame es, look_layer E c (shows E) set ly idx outer alpha frame es ->
       forall s i outside shades, set = scope_layers c s -> nth_error set i = Some ly ->
       (active ly frame -> performs a now s frame outside shades i) -> stands E view outside outer ->
       dims E alpha0 shades alpha -> Forall placed es) /\
    (forall set ly outer alpha frame es, look_matte E c (shows E) set ly outer alpha frame es ->
       forall s i outside shades, set = scope_layers c s -> nth_error set i = Some ly -> performs a now s frame outside shades i ->
       stands E view outside outer -> dims E alpha0 shades alpha -> Forall placed es) /\
    (forall ct tf alpha frame inner es, look_content E c (shows E) ct tf alpha frame inner es ->
       forall s i ly src parents outside shades, nth_error (scope_layers c s) i = Some ly -> nth_error (source_layers a s) i = Some src ->
         layer_reads E (source_layers a s) i src ly -> ly_content ly = ct -> inner = inner_time ly frame ->
         family (source_layers a s) src parents -> performs a now s frame outside shades i ->
         stands E view (layer_levels frame (src :: parents) ++ outside) tf -> dims E alpha0 (layer_levels frame [src] ++ shades) alpha -> Forall placed es) /\
    (forall set l tf alpha frame es, look_layers E c (shows E) set l tf alpha frame es ->
       forall s outside shades, set = scope_layers c s -> Forall (fun p => In (snd p) set /\ ly_is_mask (snd p) = false) l ->
       scene a now s frame outside shades -> stands E view outside tf -> dims E alpha0 shades alpha -> Forall placed es).
  Proof.
    apply (look_mind E c (shows E)
      (fun set ly idx outer alpha frame es _ =>
         forall s i outside shades, set = scope_layers c s -> nth_error set i = Some ly ->
         (active ly frame -> performs a now s frame outside shades i) -> stands E view outside outer ->
         dims E alpha0 shades alpha -> Forall placed es)
      (fun set ly outer alpha frame es _ =>
         forall s i outside shades, set = scope_layers c s -> nth_error set i = Some ly -> performs a now s frame outside shades i ->
         stands E view outside outer -> dims E alpha0 shades alpha -> Forall placed es)
      (fun ct tf alpha frame inner es _ =>
         forall s i ly src parents outside shades, nth_error (scope_layers c s) i = Some ly -> nth_error (source_layers a s) i = Some src ->
         layer_reads E (source_layers a s) i src ly -> ly_content ly = ct -> inner = inner_time ly frame ->
         family (source_layers a s) src parents -> performs a now s frame outside shades i ->
         stands E view (layer_levels frame (src :: parents) ++ outside) tf -> dims E alpha0 (layer_levels frame [src] ++ shades) alpha -> Forall placed es)
      (fun set l tf alpha frame es _ =>
         forall s outside shades, set = scope_layers c s -> Forall (fun p => In (snd p) set /\ ly_is_mask (snd p) = false) l ->
         scene a now s frame outside shades -> stands E view outside tf -> dims E alpha0 shades alpha -> Forall placed es)).
    - constructor.
    - intros set ly idx outer alpha frame tf matte paths inner Ac Pl _ IHm Fp _ IHc s i outside shades -> Hi Pf St Di.
      specialize (Pf Ac). destruct (scope_source _ _ _ _ _ _ Im Hi) as (src & Hs & L).
      destruct (Pe s src (nth_error_In _ _ Hs)) as (parents & Fa).
      assert (St' : stands E view (layer_levels frame (src :: parents) ++ outside) tf) by (eapply stands_layer; eauto).
      assert (Di' : dims E alpha0 (layer_levels frame [src] ++ shades) (dimmed E ly alpha frame)) by (eapply dims_layer; eauto).
      assert (Sh : layer_shown a now src frame (layer_levels frame (src :: parents) ++ outside) (layer_levels frame [src] ++ shades)).
      { exists s, outside, shades, i, parents. auto. }
      repeat (apply Forall_app; split).
      + apply Forall_silent. intros e [<-|[]]. exact I.
      + eapply IHm; eauto.
      + apply Forall_forall. intros e He. apply in_map_iff in He as (els & <- & He).
        destruct (Forall2_In_r _ _ _ _ Fp He) as (k & Hk & G).
        destruct (masks_in _ _ _ (br_masks _ _ _ (lr_base _ _ _ _ _ L)) Hk) as (m & Hm & Hr).
        exists src, frame, (layer_levels frame (src :: parents) ++ outside), (layer_levels frame [src] ++ shades), m, k. repeat split; auto; try apply Hr.
        eapply stands_sits; eauto. now left.
      + eapply IHc; eauto.
      + apply Forall_silent. intros e He. apply in_map_iff in He as (? & <- & _). exact I.
      + apply Forall_silent. intros e He. destruct (ly_mask_layer ly); [|destruct He]. destruct He as [<-|[<-|[]]]; exact I.
      + apply Forall_silent. intros e [<-|[]]. exact I.
    - constructor.
    - intros set ly outer alpha frame mode k m es Em Hm _ IH s i outside shades -> Hi Pf St Di. repeat (apply Forall_app; split).
      + apply Forall_silent. intros e [<-|[]]. exact I.
      + apply (IH s k outside shades); auto. intros Ac.
        destruct (scope_source _ _ _ _ _ _ Im Hi) as (src & Hs & L). destruct (scope_source _ _ _ _ _ _ Im Hm) as (msrc & Hms & Lm).
        destruct (proj1 (lr_matte _ _ _ _ _ L _ _) Em) as (mm & Ht & _ & Mf). eapply performs_matte; eauto. now apply (active_window _ _ _ _ _ Lm).
      + apply Forall_silent. intros e [<-|[]]. exact I.
    - intros set ly outer alpha frame mode k _ _ s i outside shades -> Hi Sc St Di. apply Forall_silent. intros e [<-|[<-|[]]]; exact I.
    - constructor.
    - intros shs tf alpha frame inner ps Hp s i ly src parents outside shades Hi Hs L Hc _ Fa Pf St Di.
      destruct (content_items _ _ _ _ _ L Hc) as [Nh R].
      eapply (shows_painted s); eauto; [eapply nth_error_In; eauto|]. exists s, outside, shades, i, parents. auto.
    - constructor.
    - intros name remap ls tf alpha frame inner es Hf _ IH s i ly src parents outside shades Hi Hs L Hc -> Fa Pf St Di.
      assert (Nh : ~ src_hidden src) by (intros Hh; rewrite (lr_hidden _ _ _ _ _ L Hh) in Hc; discriminate).
      pose proof (lr_content _ _ _ _ _ L Nh) as C. rewrite Hc in C.
      destruct src as [vl nm w h st tm|vl x y z|vl x|vl|vl shs] eqn:Es; cbn in C; try discriminate;
        try (now destruct C as (out & ? & _)).
      destruct C as (r & [= <- _] & _). rewrite <- Es in *.
      apply (IH (Some name) (layer_levels frame (src :: parents) ++ outside) (layer_levels frame [src] ++ shades)).
      + unfold scope_layers. now rewrite Hf.
      + apply Forall_forall. intros p Hp. unfold shown in Hp. apply filter_In in Hp as [Hp Hm]. apply in_rev in Hp.
        apply in_map_iff in Hp as (l & <- & Hl). split; [exact Hl|]. now apply negb_true_iff in Hm.
      + rewrite (inside_time _ _ _ _ _ L). eapply scene_precomp; eauto.
      + exact St.
      + exact Di.
    - constructor.
    - intros set i ly l tf alpha frame es es' _ IHl _ IHls s outside shades -> F Sc St Di. inversion F as [|? ? [F1 F1'] F2]; subst. cbn [snd] in F1, F1'.
      apply Forall_app. split.
      + apply In_nth_error in F1 as (k & Hk). apply (IHl s k outside shades); auto. intros Ac.
        destruct (scope_source _ _ _ _ _ _ Im Hk) as (src & Hs & L). eapply performs_itself; eauto.
        * intros M. apply (lr_is_mask _ _ _ _ _ L) in M. congruence.
        * now apply (active_window _ _ _ _ _ L).
      + eapply IHls; eauto.
  Qed.
  End Sound.

  (** ** Nothing is missing *)
  Lemma look_layers_in set l tf alpha frame es n ly : look_layers E c (shows E) set l tf alpha frame es -> In (n, ly) l ->
    exists es', look_layer E c (shows E) set ly n tf alpha frame es' /\ incl es' es.
  Proof.
    induction 1 as [|set i ly' l tf alpha frame es es' H _ IH]; [intros []|]. intros [[= -> ->]|Hin].
    - exists es. split; [exact H|]. apply incl_appl, incl_refl.
    - destruct (IH Hin) as (es2 & H1 & H2). exists es2. split; [exact H1|]. now apply incl_appr.
  Qed.
  Lemma layer_of s i l : nth_error (source_layers a s) i = Some l ->
    exists ly, nth_error (scope_layers c s) i = Some ly /\ layer_reads E (source_layers a s) i l ly.
  Proof.
    intros Hs. destruct (conv_animation_reads E a c Im s) as [Len R].
    destruct (nth_error (scope_layers c s) i) as [ly|] eqn:K.
    - exists ly. split; [reflexivity|]. now apply R.
    - apply nth_error_None in K. assert (i < List.length (source_layers a s))%nat by (apply nth_error_Some; congruence). lia.
  Qed.
  Variable es0 : list event.
  Variable lys0 : list (nat * layer).
  Hypothesis Fr : look_layers E c (shows E) (co_layers c) lys0 view alpha0 now es0.
  Hypothesis Nu : numbered (co_layers c) lys0.
  Hypothesis Vw : stands E view [] view.
  Definition list_performs (s : option string) (t : f64) (outside shades : list level) : Prop := source_layers a s = [] \/
    exists lys tf al es, look_layers E c (shows E) (scope_layers c s) lys tf al t es /\ numbered (scope_layers c s) lys /\ incl es es0 /\
      stands E view outside tf /\ dims E alpha0 shades al.
  Definition layer_performs (s : option string) (t : f64) (outside shades : list level) (i : nat) : Prop :=
    exists ly n tf al es, nth_error (scope_layers c s) i = Some ly /\ active ly t /\ look_layer E c (shows E) (scope_layers c s) ly n tf al t es /\
      incl es es0 /\ stands E view outside tf /\ dims E alpha0 shades al.
  (** what a layer that is shown paints *)
  Lemma performance s t outside shades i l parents : layer_performs s t outside shades i -> nth_error (source_layers a s) i = Some l ->
    family (source_layers a s) l parents ->
    exists ly tf outer al al' paths es' es'', nth_error (scope_layers c s) i = Some ly /\ layer_reads E (source_layers a s) i l ly /\
      look_matte E c (shows E) (scope_layers c s) ly outer al t es' /\ incl es' es0 /\ stands E view outside outer /\ dims E alpha0 shades al /\
      Forall2 (fun m p => geometry_eval E (mk_geometry m) t = Ok p) (ly_masks ly) paths /\
      incl (map (fun p => EvPushClip tf (SkPath p)) paths) es0 /\
      look_content E c (shows E) (ly_content ly) tf al' t (time_inside l t) es'' /\ incl es'' es0 /\
      stands E view (layer_levels t (l :: parents) ++ outside) tf /\ dims E alpha0 (layer_levels t [l] ++ shades) al'.
  Proof.
    intros (ly & n & outer & al & es & Hi & Ac & Fl & In' & St & Di) Hs Fa.
    destruct (layer_of s i l Hs) as (ly' & Hi' & L). assert (ly' = ly) as -> by congruence.
    inversion Fl as [? ? ? ? ? ? Na|? ? ? ? ? ? tf matte paths inner _ Pl Fm Fp Fc]; subst; [contradiction|].
    exists ly, tf, outer, al, (dimmed E ly al t), paths, matte, inner. split; [exact Hi|]. split; [exact L|]. split; [exact Fm|].
    split. { intros e He. apply In', in_or_app. right. apply in_or_app. now left. }
    split; [exact St|]. split; [exact Di|]. split; [exact Fp|].
    split. { intros e He. apply In', in_or_app. right. apply in_or_app. right. apply in_or_app. now left. }
    rewrite <- (inside_time _ _ _ _ _ L). split; [exact Fc|].
    split. { intros e He. apply In', in_or_app. right. apply in_or_app. right. apply in_or_app. right. apply in_or_app. now left. }
    split; [eapply stands_layer; eauto|]. eapply dims_layer; eauto.
  Qed.
  Scheme scene_mind := Induction for scene Sort Prop with performs_mind := Induction for performs Sort Prop.
  Combined Scheme show_mind from scene_mind, performs_mind.
  Hypothesis Pe : parents_end a.
  Lemma show_performs :
    (forall s t outside shades, scene a now s t outside shades -> list_performs s t outside shades) /\
    (forall s t outside shades i, performs a now s t outside shades i -> layer_performs s t outside shades i).
  Proof.
    apply (show_mind a now (fun s t outside shades _ => list_performs s t outside shades) (fun s t outside shades i _ => layer_performs s t outside shades i)).
    - right. exists lys0, view, alpha0, es0. split; [exact Fr|]. split; [exact Nu|]. split; [apply incl_refl|]. split; [exact Vw|apply dims_caller].
    - intros s t outside shades i l parents vl name w h st tm _ IH Hs Fa Nh El.
      destruct (performance _ _ _ _ _ _ _ IH Hs Fa) as (ly & tf & outer & al & al' & paths & es' & es'' & Hi & L & _ & _ & _ & _ & _ & _ & Fc & In' & St' & Di').
      pose proof (lr_content _ _ _ _ _ L Nh) as C. rewrite El in C. cbn in C. destruct C as (r & Cr & _). rewrite Cr in Fc.
      inversion Fc as [| |? ? ? ? ? ? Nf|? ? ls ? ? ? ? ? Hf Fi]; subst.
      + left. destruct (conv_animation_reads E a c Im (Some name)) as [Len _]. unfold scope_layers in Len. rewrite Nf in Len.
        destruct (source_layers a (Some name)); [reflexivity|discriminate Len].
      + right. exists (shown (map (fun ly => (0%nat, ly)) ls)), tf, al', es''.
        assert (Sc : scope_layers c (Some name) = ls) by (unfold scope_layers; now rewrite Hf). rewrite Sc.
        split; [exact Fi|]. split; [|split; [exact In'|split; [exact St'|exact Di']]].
        apply shown_numbered. intros ly' Hl. exists 0%nat. now apply in_map.
    - intros s t outside shades i l _ IH Hs Nm Wi. destruct (layer_of s i l Hs) as (ly & Hi & L).
      destruct IH as [N|(lys & tf & al & es & F1 & F2 & F3 & F4 & F5)]; [rewrite N in Hs; destruct i; discriminate Hs|].
      assert (Mk : ly_is_mask ly = false).
      { destruct (ly_is_mask ly) eqn:K; [|reflexivity]. exfalso. apply Nm. now apply (lr_is_mask _ _ _ _ _ L). }
      destruct (F2 ly (nth_error_In _ _ Hi) Mk) as (n & Hn).
      destruct (look_layers_in _ _ _ _ _ _ _ _ F1 Hn) as (es1 & Fl & I1).
      exists ly, n, tf, al, es1. split; [exact Hi|]. split; [now apply (active_window _ _ _ _ _ L)|]. split; [exact Fl|].
      split; [|split; assumption]. intros e He. now apply F3, I1.
    - intros s t outside shades i l mode k m _ IH Hs Ht Mf Hm Wi.
      destruct (Pe s l (nth_error_In _ _ Hs)) as (parents & Fa).
      destruct (performance _ _ _ _ _ _ _ IH Hs Fa) as (ly & tf & outer & al & al' & paths & es' & es'' & Hi & L & Fm & In' & St & Di & _).
      destruct (layer_of s k m Hm) as (lm & Hlm & Lm).
      assert (Em : ly_mask_layer ly = Some (matte_blend mode, k)) by (apply (lr_matte _ _ _ _ _ L); eauto).
      inversion Fm as [? ? ? ? ? N|? ? ? ? ? mode' k' m' es Em' Hm' Fl|? ? ? ? ? mode' k' Em' Hm']; subst; [congruence| |].
      2:{ rewrite Em in Em'. injection Em' as _ <-. congruence. }
      rewrite Em in Em'. injection Em' as _ <-. assert (m' = lm) as -> by congruence.
      exists lm, 0%nat, outer, al, es. split; [exact Hlm|]. split; [now apply (active_window _ _ _ _ _ Lm)|]. split; [exact Fl|].
      split; [|split; assumption]. intros e He. apply In', in_or_app. right. apply in_or_app. now left.
  Qed.
  Lemma item_performs l t levels shades groups z sgroups y : layer_shown a now l t levels shades -> ~ src_hidden l ->
    (forall x, In x (items l) -> untrimmed x) -> (exists pen, tidy Free (items l) pen) -> inks (items l) groups z sgroups y -> outline_item z -> yields z ->
    exists p, In (EvDraw p) es0 /\ paints_item E view alpha0 t levels shades groups z sgroups y p.
  Proof.
    intros (s & outside & shades' & i & parents & Pf & Hs & Fa & -> & ->) Nh Un (pen & Td) Ik Oz Yz.
    apply (proj2 show_performs) in Pf.
    destruct (performance _ _ _ _ _ _ _ Pf Hs Fa) as (ly & tf & outer & al & al' & paths & es' & es'' & Hi & L & _ & _ & _ & _ & _ & _ & Fc & In' & St' & Di').
    destruct l as [| |vl shs| |]; cbn [items] in Ik; try (exfalso; exact (inks_nil _ _ _ _ Ik)).
    pose proof (lr_content _ _ _ _ _ L Nh) as C. cbn in C. destruct C as (out & Co & R). rewrite Co in Fc.
    inversion Fc as [|? ? ? ? ? ps [_ Hp']| |]; subst.
    destruct Hp' as (pc & Hp & ->).
    { cbn [items] in Td. destruct (proj1 (imported_keeps E t) _ _ R _ _ Td tf None eq_refl) as (s' & K & _). unfold no_clash. rewrite K. discriminate. }
    pose proof (picture_good E view alpha0 A (AlShape vl shs) t _ _ _ _ _ _ R St' Di' Hp) as G.
    destruct (gp_inked _ _ _ _ _ _ _ _ _ G Un _ _ _ _ Ik Oz Yz) as (d & o & D1 & (dr & al2 & B & D2 & Es) & O1 & (gm & pre & post & m' & K1 & K2 & K3 & K4)).
    exists (mkPaint (sy_stroke (fst d)) (snd o) (style_brush E (fst d)) (fst o)). split.
    - apply In', in_map, paint_of_pic. now exists d, o.
    - exists gm, (fdiv (fmul al2 (eval E (dr_opacity dr) t)) f100), pre, post. split; [exact K1|]. cbn [pt_path pt_transform].
      split; [exact K2|]. split; [eapply stands_sits; eauto|]. split; [now apply dims_shines|]. eapply style_ink; [exact B|]. now rewrite Es.
  Qed.
  Lemma masks_out l k m : masks_read l k -> In m l -> mask_imports m -> exists x, In x k /\ mask_reads m x.
  Proof.
    induction 1 as [|m' l out N _ IH|m' y l out _ R _ IH]; [intros []| |]; intros [->|Hin] M.
    - contradiction.
    - now apply IH.
    - exists y. split; [now left|exact R].
    - destruct (IH Hin M) as (x & H1 & H2). exists x. split; [now right|exact H2].
  Qed.
  Lemma mask_performs l t levels shades m : layer_shown a now l t levels shades -> In m (src_masks l) -> mask_imports m ->
    exists k els tf, mask_reads m k /\ geometry_eval E (mk_geometry k) t = Ok els /\ In (EvPushClip tf (SkPath els)) es0 /\
      sits_through E (1 / 100) view levels tf.
  Proof.
    intros (s & outside & shades' & i & parents & Pf & Hs & Fa & -> & ->) Hm Mi.
    apply (proj2 show_performs) in Pf.
    destruct (performance _ _ _ _ _ _ _ Pf Hs Fa) as (ly & tf & outer & al & al' & paths & es' & es'' & Hi & L & _ & _ & _ & _ & Fp & In' & _ & _ & St' & Di').
    destruct (masks_out _ _ _ (br_masks _ _ _ (lr_base _ _ _ _ _ L)) Hm Mi) as (k & Hk & Hr).
    assert (P : exists els, In els paths /\ geometry_eval E (mk_geometry k) t = Ok els).
    { clear - Fp Hk. induction Fp as [|x y l l' H _ IH]; [destruct Hk|]. destruct Hk as [->|Hk]; [exists y; split; [now left|exact H]|].
      destruct (IH Hk) as (e & H1 & H2). exists e. split; [now right|exact H2]. }
    destruct P as (els & Pe' & Pg). exists k, els, tf. split; [exact Hr|]. split; [exact Pg|]. split.
    - apply In'. now apply (in_map (fun p => EvPushClip tf (SkPath p))).
    - eapply stands_sits; eauto. now left.
  Qed.
End Frames2.
(** * C82 *)
(** Every path that is painted, in a document whose layers are tidy or without
    trims. *)
Theorem C82_painted_clear : forall E a c frame view alpha r es p, accurate E -> kurbo_paths E -> conv_animation E a = Ok c ->
  stars_fit_in a -> clear_in a -> parents_end a -> plain_view view -> used r ->
  append_draws E c frame view alpha r es -> In (EvDraw p) es -> pt_path p <> [] -> painted E a frame view alpha p.
Proof.
  intros E a c frame view alpha r es p A K H F Cl Pe V U D Hin Np.
  apply (C97_frame E c frame view alpha r es (document_sound E a c K H F) U) in D.
  destruct D as (body & D & ->). apply in_app_or in Hin as [[Hin|[]]|Hin]; [discriminate|].
  apply in_app_or in Hin as [Hin|[Hin|[]]]; [|discriminate].
  pose proof (proj2 (proj2 (proj2 (look_placed E a c view alpha frame A H Pe))) _ _ _ _ _ _ D None [] [] eq_refl (enumerated_shown c)
    (scene_main a frame) (stands_view E view V) (dims_caller E alpha)) as P.
  rewrite Forall_forall in P. exact (P _ Hin Np Cl).
Qed.
(** Clips, in any document. *)
Theorem C82_clipped_any : forall E a c frame view alpha r es m els, accurate E -> kurbo_paths E -> conv_animation E a = Ok c ->
  stars_fit_in a -> parents_end a -> plain_view view -> used r ->
  append_draws E c frame view alpha r es -> In (EvPushClip m (SkPath els)) es -> clipped E a frame view m els.
Proof.
  intros E a c frame view alpha r es m els A K H F Pe V U D Hin.
  apply (C97_frame E c frame view alpha r es (document_sound E a c K H F) U) in D.
  destruct D as (body & D & ->). apply in_app_or in Hin as [[Hin|[]]|Hin]; [discriminate|].
  apply in_app_or in Hin as [Hin|[Hin|[]]]; [|discriminate].
  pose proof (proj2 (proj2 (proj2 (look_placed E a c view alpha frame A H Pe))) _ _ _ _ _ _ D None [] [] eq_refl (enumerated_shown c)
    (scene_main a frame) (stands_view E view V) (dims_caller E alpha)) as P.
  rewrite Forall_forall in P. exact (P _ Hin).
Qed.
(** Nothing is missing from a layer that is tidy and has no trims, whatever the
    other layers are. *)
Theorem C82_complete_layer : forall E a c frame view alpha r es l t levels shades groups z sgroups y,
  accurate E -> kurbo_paths E -> conv_animation E a = Ok c ->
  stars_fit_in a -> parents_end a -> plain_view view -> used r ->
  append_draws E c frame view alpha r es ->
  layer_shown a frame l t levels shades -> ~ src_hidden l -> (forall x, In x (items l) -> untrimmed x) -> (exists pen, tidy Free (items l) pen) ->
  inks (items l) groups z sgroups y -> outline_item z -> yields z ->
  exists p, In (EvDraw p) es /\ paints_item E view alpha t levels shades groups z sgroups y p.
Proof.
  intros E a c frame view alpha r es l t levels shades groups z sgroups y A K H F Pe V U D Sh Nh Un Td Ik Oz Yz.
  apply (C97_frame E c frame view alpha r es (document_sound E a c K H F) U) in D.
  destruct D as (body & D & ->).
  destruct (item_performs E a c view alpha frame A H body _ D (enumerated_numbered c) (stands_view E view V) Pe l t levels shades groups z sgroups y Sh Nh Un Td Ik Oz Yz) as (p & Hp & P).
  exists p. split; [|exact P]. apply in_or_app. right. apply in_or_app. now left.
Qed.
(** Masks, in any document. *)
Theorem C82_masks_any : forall E a c frame view alpha r es l t levels shades m,
  accurate E -> kurbo_paths E -> conv_animation E a = Ok c ->
  stars_fit_in a -> parents_end a -> plain_view view -> used r ->
  append_draws E c frame view alpha r es ->
  layer_shown a frame l t levels shades -> In m (src_masks l) -> mask_imports m ->
  exists k els tf, mask_reads m k /\ geometry_eval E (mk_geometry k) t = Ok els /\ In (EvPushClip tf (SkPath els)) es /\
    sits_through E (1 / 100) view levels tf.
Proof.
  intros E a c frame view alpha r es l t levels shades m A K H F Pe V U D Sh Hm Mi.
  apply (C97_frame E c frame view alpha r es (document_sound E a c K H F) U) in D.
  destruct D as (body & D & ->).
  destruct (mask_performs E a c view alpha frame A H body _ D (enumerated_numbered c) (stands_view E view V) Pe l t levels shades m Sh Hm Mi) as (k & els & tf & P1 & P2 & P3 & P4).
  exists k, els, tf. split; [exact P1|]. split; [exact P2|]. split; [|exact P4]. apply in_or_app. right. apply in_or_app. now left.
Qed.
Lemma mixed_scopes s : source_layers doc_mixed s = source_layers doc_mixed None \/ source_layers doc_mixed s = [].
Proof. destruct s as [n|]; [right; reflexivity|now left]. Qed.
(** The document of C97, with a clash in one layer and a trim in another: the hypotheses
    hold, and both layers are shown. *)
Example C82_clear_applies : accurate E_accurate /\ kurbo_paths E_accurate /\ stars_fit_in doc_mixed /\ clear_in doc_mixed /\
  ~ tidy_in doc_mixed /\ parents_end doc_mixed /\ plain_view affine_identity /\
  (exists c es, conv_animation E_accurate doc_mixed = Ok c /\ append_draws E_accurate c f0 affine_identity f1 renderer_new es) /\
  forall l, In l (ani_layers doc_mixed) -> exists levels shades, layer_shown doc_mixed f0 l f0 levels shades /\ ~ src_hidden l.
Proof.
  destruct C97_applies as (_ & Su & Ns & Sf & Cl & Td).
  assert (K : kurbo_paths E_accurate) by (split; reflexivity).
  assert (Pe : parents_end doc_mixed).
  { intros s l. destruct (mixed_scopes s) as [->| ->]; [|intros []].
    intros [<-|[<-|[]]]; exists []; apply fam_top; intros p Hp; discriminate Hp. }
  split; [apply E_accurate_ok|]. split; [exact K|]. split; [exact Sf|]. split; [exact Cl|]. split; [exact Td|]. split; [exact Pe|].
  split; [apply C82_applies|]. split.
  - destruct (C68_never_crashes E_accurate doc_mixed K Su Ns Sf) as (c & H & R).
    destruct (R f0 affine_identity f1 renderer_new used_new) as (es & D). exists c, es. auto.
  - intros l Hl. assert (X : exists i, nth_error (source_layers doc_mixed None) i = Some l) by (now apply In_nth_error).
    destruct X as (i & Hi). exists (layer_levels f0 [l] ++ []), (layer_levels f0 [l] ++ []).
    assert (Y : ~ matte_source l /\ in_window l f0 /\ ~ src_hidden l /\ family (source_layers doc_mixed None) l []).
    { destruct Hl as [<-|[<-|[]]]; (split; [|split; [|split]]); try (now intros []); try (split; reflexivity);
        try (unfold matte_source, src_hidden; cbn; intuition discriminate); apply fam_top; intros p Hp; discriminate Hp. }
    destruct Y as (Y1 & Y2 & Y3 & Y4). split; [|exact Y3].
    exists None, [], [], i, []. split; [|split; [exact Hi|split; [exact Y4|auto]]].
    eapply performs_itself; eauto. apply scene_main.
Qed.
