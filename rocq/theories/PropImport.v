(** Properties of the importer.  Statements use ImportSpec.v and
    RenderSpec.v only. *)
From Coq Require Import ZArith Reals Bool List Arith String Lia Relation_Operators.
From Flocq Require Import Core BinarySingleNaN.
From Verif Require Import F64 Kurbo Value Animated Batch Render RenderSpec RenderFacts RenderFacts2
  RenderFacts3 Examples PropRender ValueSpec ValueFacts Schema Import ImportSpec ImportFacts ImportFacts2
  ImportFacts3 ImportFacts4 DocExamples.
Import ListNotations.
Open Scope list_scope.
Open Scope nat_scope.

(** * C34 *)
Theorem C34_layer_list : forall E a c, conv_animation E a = Ok c ->
  co_in c = ani_ip a /\ co_out c = ani_op a /\ co_frame_rate c = ani_fr a /\
  co_width c = ani_w a /\ co_height c = ani_h a /\
  forall s, List.length (scope_layers c s) = List.length (source_layers a s) /\
  forall i src ly, nth_error (source_layers a s) i = Some src -> layer_at c (s, i) = Some ly ->
    ly_name ly = src_name src /\
    ly_in ly = sl_ip (base_of src) /\ ly_out ly = sl_op (base_of src) /\
    ly_stretch ly = src_stretch src /\ ly_start_frame ly = src_start src /\
    (ly_width ly, ly_height ly) = match src with AlPrecomp _ _ w h _ _ => (w, h) | _ => (f0, f0) end.
Proof.
  intros E a c H. pose proof (conv_animation_ok _ _ _ H) as (m & _ & _ & Hc).
  do 5 (split; [rewrite Hc; reflexivity|]). clear Hc. intros s.
  destruct (conv_animation_reads _ _ _ H s) as [L R]. split; [exact L|].
  intros i src ly Hs Hl. destruct (R i src ly Hs Hl) as [[] _ _ _ _ _ _]. auto 10.
Qed.
Example C34_witness : match conv_animation E0 doc1 with Ok c =>
  map ly_name (scope_layers c None) = ["matte"; "content"; "hidden"; "inst"; "null"]%string /\
  map ly_name (scope_layers c (Some "pre"%string)) = ["a"; "b"]%string
  | _ => False end.
Proof. vm_compute. auto. Qed.

(** * C35 *)
Theorem C35_parents : forall E a c s i src ly, conv_animation E a = Ok c ->
  nth_error (source_layers a s) i = Some src -> layer_at c (s, i) = Some ly ->
  (forall k, ly_parent ly = Some k <->
     exists p, sl_parent (base_of src) = Some p /\ last_with_id (source_layers a s) p k) /\
  (forall k, ly_parent ly = Some k -> k < List.length (scope_layers c s)).
Proof.
  intros E a c s i src ly H Hs Hl. destruct (conv_animation_reads _ _ _ H s) as [L R].
  pose proof (lr_parent _ _ _ _ _ (R i src ly Hs Hl)) as P. split; [exact P|].
  intros k Hk. apply P in Hk. destruct Hk as (p & _ & (l & Hk & _) & _).
  rewrite L. apply nth_error_Some. congruence.
Qed.
(** ... and nothing else: [None] if no layer has that id. *)
Theorem C35_no_parent : forall E a c s i src ly, conv_animation E a = Ok c ->
  nth_error (source_layers a s) i = Some src -> layer_at c (s, i) = Some ly ->
  (ly_parent ly = None <->
   forall p, sl_parent (base_of src) = Some p -> forall l, In l (source_layers a s) -> src_id l <> p).
Proof.
  intros E a c s i src ly H Hs Hl. destruct (C35_parents _ _ _ _ _ _ _ H Hs Hl) as [P _]. split.
  - intros N p Hp l Hin Hid.
    assert (X : exists k, last_with_id (source_layers a s) p k).
    { clear - Hin Hid. induction (source_layers a s) as [|x srcs IH]; [destruct Hin|].
      destruct (in_dec Nat.eq_dec p (map src_id srcs)) as [D|D].
      - apply in_map_iff in D. destruct D as (y & E1 & E2).
        assert (Y : exists k, last_with_id srcs p k).
        { clear - E1 E2. induction srcs as [|z srcs IH] using rev_ind; [destruct E2|].
          destruct (Nat.eq_dec (src_id z) p) as [Ez|Nz].
          - exists (List.length srcs). split.
            + exists z. split; [|exact Ez]. rewrite nth_error_app2, Nat.sub_diag by lia. reflexivity.
            + intros j l Lj Hj. exfalso. assert (j < List.length (srcs ++ [z])) by (apply nth_error_Some; congruence).
              rewrite app_length in H. cbn in H. lia.
          - apply in_app_or in E2. destruct E2 as [E2|[->|[]]]; [|congruence].
            destruct (IH E2) as (k & (l & K1 & K2) & K3). exists k. split.
            + exists l. split; [|exact K2]. rewrite nth_error_app1; [exact K1|]. apply nth_error_Some. congruence.
            + intros j l' Lj Hj. destruct (Nat.lt_ge_cases j (List.length srcs)) as [Lt|Ge].
              * rewrite nth_error_app1 in Hj by assumption. now apply (K3 j).
              * rewrite nth_error_app2 in Hj by assumption. destruct (j - List.length srcs) as [|[|?]]; cbn in Hj; try discriminate.
                injection Hj as <-. exact Nz. }
        destruct Y as (k & (l' & K1 & K2) & K3). exists (S k). split; [exists l'; auto|].
        intros [|j] l'' Lj Hj; [lia|]. apply (K3 j); [lia|exact Hj].
      - destruct Hin as [->|Hin].
        + exists 0. split; [exists l; auto|]. intros [|j] l' Lj Hj Eq; [lia|]. apply D.
          cbn in Hj. rewrite <- Eq. apply in_map. eapply nth_error_In; eauto.
        + exfalso. apply D. rewrite <- Hid. now apply in_map. }
    destruct X as (k & Hk). assert (ly_parent ly = Some k) by (apply P; eauto). congruence.
  - intros A. destruct (ly_parent ly) as [k|]; [|reflexivity]. exfalso.
    destruct (proj1 (P k) eq_refl) as (p & Hp & (l & K1 & K2) & _).
    apply (A p Hp l); [eapply nth_error_In; eauto|exact K2].
Qed.
Example C35_witness : match conv_animation E0 doc1 with Ok c =>
  map ly_parent (scope_layers c None) = [None; Some 2; None; Some 1; None] /\
  map ly_parent (scope_layers c (Some "pre"%string)) = [None; Some 0]
  | _ => False end.
Proof. vm_compute. auto. Qed.

(** * C36 *)
Theorem C36_mattes : forall E a c s i src ly, conv_animation E a = Ok c ->
  nth_error (source_layers a s) i = Some src -> layer_at c (s, i) = Some ly ->
  (forall mode k, ly_mask_layer ly = Some (mode, k) <->
     exists t, vl_tt (visual_of src) = Some t /\ mode = matte_blend t /\
       match vl_tp (visual_of src) with
       | Some x => last_with_id (source_layers a s) (Z.to_nat (f_to_usize x)) k
       | None => nearest_matte (source_layers a s) i k
       end) /\
  (forall mode k, ly_mask_layer ly = Some (mode, k) -> k < List.length (scope_layers c s)) /\
  (ly_is_mask ly = true <-> matte_source src).
Proof.
  intros E a c s i src ly H Hs Hl. destruct (conv_animation_reads _ _ _ H s) as [L R].
  destruct (R i src ly Hs Hl) as [_ _ M K _ _ _]. unfold matte_for, matte_target in M.
  assert (M' : forall mode k, ly_mask_layer ly = Some (mode, k) <->
     exists t, vl_tt (visual_of src) = Some t /\ mode = matte_blend t /\
       match vl_tp (visual_of src) with
       | Some x => last_with_id (source_layers a s) (Z.to_nat (f_to_usize x)) k
       | None => nearest_matte (source_layers a s) i k
       end).
  { intros mode k. rewrite M. destruct (vl_tp (visual_of src)); reflexivity. }
  split; [exact M'|]. split; [|exact K].
  intros mode k Hk. apply M' in Hk. destruct Hk as (t & _ & _ & Hk). rewrite L. apply nth_error_Some.
  destruct (vl_tp (visual_of src)).
  - destruct Hk as ((l & K1 & _) & _). congruence.
  - destruct Hk as (_ & (l & K1 & _) & _). congruence.
Qed.
Example C36_witness : match conv_animation E0 doc1 with Ok c =>
  map ly_mask_layer (scope_layers c None) =
    [None; Some (blend_of_compose ComposeSrcIn, 0); None; None; None] /\
  map ly_mask_layer (scope_layers c (Some "pre"%string)) = [None; Some (blend_of_compose ComposeSrcOut, 0)] /\
  map ly_is_mask (scope_layers c None) = [true; false; false; false; false]
  | _ => False end.
Proof. vm_compute. auto. Qed.

(** * C37 *)
(** A hidden layer has no content and is no matte source; everything else
    about it is as if it were visible ([a'] is the same document with the
    layer visible).  The other layers are unaffected, except that they may
    lose it as their implicit matte. *)
Theorem C37_hidden : forall E a a' c c' s pre src post,
  conv_animation E a = Ok c -> conv_animation E a' = Ok c' ->
  source_layers a s = pre ++ src :: post -> source_layers a' s = pre ++ unhide src :: post ->
  src_hidden src ->
  (forall ly, layer_at c (s, List.length pre) = Some ly ->
     ly_content ly = CNone /\ ly_is_mask ly = false /\
     exists ly', layer_at c' (s, List.length pre) = Some ly' /\ ly = blank ly') /\
  (forall i ly ly', i <> List.length pre -> layer_at c (s, i) = Some ly -> layer_at c' (s, i) = Some ly' ->
     without_matte ly = without_matte ly').
Proof.
  intros E a a' c c' s pre src post H H' Hs Hs' Hh.
  pose proof (conv_animation_scopes _ _ _ H s) as P. pose proof (conv_animation_scopes _ _ _ H' s) as P'.
  destruct (conv_animation_reads _ _ _ H' s) as [L' _].
  rewrite Hs in P. rewrite Hs' in P'. destruct (process_hidden _ _ _ _ _ _ Hh P P') as [A B]. split; [|exact B].
  intros ly Hl. unfold layer_at in *. cbn [fst snd] in *.
  destruct (nth_error (scope_layers c' s) (List.length pre)) as [ly'|] eqn:N.
  - rewrite (A ly ly' Hl eq_refl) at 1 2. split; [reflexivity|]. split; [reflexivity|]. exists ly'. auto.
  - apply nth_error_None in N. rewrite L', Hs', app_length in N. cbn in N. lia.
Qed.
(** It draws nothing: rendering it makes no draw call of its own (only its
    matte, if it has one, is drawn). *)
Theorem C37_draws_nothing : forall E a c s i src ly set idx tf alpha frame es,
  conv_animation E a = Ok c -> nth_error (source_layers a s) i = Some src -> layer_at c (s, i) = Some ly ->
  src_hidden src -> vl_tt (visual_of src) = None ->
  layer_draws E c set ly idx tf alpha frame es -> forall p, ~ In (EvDraw p) es.
Proof.
  intros E a c s i src ly set idx tf alpha frame es H Hs Hl Hh Ht D p Hin.
  destruct (conv_animation_reads _ _ _ H s) as [_ R]. destruct (R i src ly Hs Hl) as [_ _ M _ Hc _ _].
  specialize (Hc Hh).
  assert (Nm : ly_mask_layer ly = None).
  { destruct (ly_mask_layer ly) as [[mode k]|]; [|reflexivity]. exfalso.
    destruct (proj1 (M mode k) eq_refl) as (t & X & _). congruence. }
  destruct (in_window ly frame) eqn:W.
  2:{ apply layer_draws_inactive in D; [subst es; destruct Hin|]. rewrite active_in_window. congruence. }
  apply active_in_window in W. apply layer_draws_masks in D; [|exact W|exact Nm].
  destruct D as (paths & own & _ & D & ->).
  assert (O : own = []).
  { destruct D as (fuel & _ & Ev). destruct fuel; [discriminate|]. cbn [render_layer] in Ev.
    replace (in_window (without_masks ly) frame) with true in Ev
      by (symmetry; apply (proj1 (active_in_window (without_masks ly) frame)); exact W).
    cbn [ly_mask_layer ly_content ly_masks without_masks] in Ev. rewrite Nm, Hc in Ev.
    unfold events, mbind, emit, emits, ret in Ev.
    cbn [negb forM List.length Nat.add repeat r_out r_st r_trace app map fst ret] in Ev.
    injection Ev as Ev.
    destruct own as [|x own]; [reflexivity|]. cbn in Ev. injection Ev as _ Ev. destruct own; discriminate. }
  subst own. cbn in Hin. destruct Hin as [X|Hin]; [discriminate|]. apply in_app_or in Hin.
  destruct Hin as [Hin|Hin]; [apply in_map_iff in Hin; destruct Hin as (? & ? & _); discriminate|].
  apply in_app_or in Hin. destruct Hin as [Hin|[X|[]]]; [|discriminate].
  apply repeat_spec in Hin. discriminate.
Qed.
Example C37_witness : exists src pre post, source_layers doc1 None = pre ++ src :: post /\ src_hidden src /\
  List.length pre = 2 /\ vl_tt (visual_of src) = None /\ vl_td (visual_of src) = Some BITrue /\
  exists c, conv_animation E0 doc1 = Ok c.
Proof.
  eexists. exists (firstn 2 (ani_layers doc1)), (skipn 3 (ani_layers doc1)).
  split; [reflexivity|]. split; [reflexivity|]. repeat (split; [reflexivity|]). apply doc1_ok.
Qed.

(** * C38 *)
Theorem C38_supported : forall E a,
  ((exists c, conv_animation E a = Ok c) <-> animation_supported a) /\
  (conv_animation E a = Panic <-> ~ animation_supported a) /\
  conv_animation E a <> Oof.
Proof.
  intros E a. pose proof (conv_animation_spec E a) as S. unfold spec in S.
  destruct (conv_animation E a) as [c| |].
  - split; [split; [intros _; apply S|eauto]|]. split; [|discriminate].
    split; [discriminate|]. intros N. now destruct (N (proj1 S)).
  - split; [split; [intros (? & ?); discriminate|contradiction]|]. split; [tauto|discriminate].
  - destruct S.
Qed.
(** Being importable does not depend on the mathematics library. *)
Theorem C38_independent : forall E E' a c, conv_animation E a = Ok c -> exists c', conv_animation E' a = Ok c'.
Proof. intros E E' a c H. apply C38_supported. apply (C38_supported E a). eauto. Qed.
Definition doc_unsupported : animation :=
  doc [] [AlNull (visual (base "n" None None None)
    (mkSTransform None (ApPosition (p_static 0 0)) None None None None None) None None None)].
Example C38_witness : animation_supported doc1 /\ ~ animation_supported doc_unsupported.
Proof.
  split.
  - apply (C38_supported E0). apply doc1_ok.
  - apply (C38_supported E0). vm_compute. reflexivity.
Qed.

(** * C39 *)
Theorem C39_shapes : forall E a c s i vl shapes ly, conv_animation E a = Ok c ->
  nth_error (source_layers a s) i = Some (AlShape vl shapes) -> layer_at c (s, i) = Some ly ->
  ~ src_hidden (AlShape vl shapes) ->
  exists out, ly_content ly = CShape out /\ imports E shapes out.
Proof.
  intros E a c s i vl shapes ly H Hs Hl Hn. destruct (conv_animation_reads _ _ _ H s) as [_ R].
  destruct (R i _ ly Hs Hl) as [_ _ _ _ _ C _]. exact (C Hn).
Qed.
(** The number of entries is the number of shapes that leave a trace, at
    every level. *)
Theorem C39_count : forall E l out, imports E l out ->
  exists kept, Forall2 (becomes E) kept out /\ (forall x, In x kept -> yields x) /\
    exists dropped, (forall x, In x dropped -> ~ yields x) /\
      List.length l = List.length kept + List.length dropped /\
      forall x, In x l <-> In x kept \/ In x dropped.
Proof.
  intros E l out. revert l. induction out as [|s out IHo]; intros l; induction l as [|x l IH]; intros H.
  - exists []. split; [constructor|]. split; [intros ? []|]. exists []. split; [intros ? []|]. cbn. split; [reflexivity|tauto].
  - inversion H; subst. destruct (IH H4) as (k & K1 & K2 & d & D1 & D2 & D3).
    exists k. split; [exact K1|]. split; [exact K2|]. exists (x :: d). split.
    + intros y [<-|Hy]; auto.
    + cbn. split; [lia|]. intros y. rewrite D3. tauto.
  - inversion H.
  - inversion H; subst.
    + destruct (IH H4) as (k & K1 & K2 & d & D1 & D2 & D3).
      exists k. split; [exact K1|]. split; [exact K2|]. exists (x :: d). split.
      * intros y [<-|Hy]; auto.
      * cbn. split; [lia|]. intros y. rewrite D3. tauto.
    + destruct (IHo l H6) as (k & K1 & K2 & d & D1 & D2 & D3).
      exists (x :: k). split; [now constructor|]. split; [intros y [<-|Hy]; auto|]. exists d. split; [exact D1|].
      cbn. split; [lia|]. intros y. rewrite D3. tauto.
Qed.
Fixpoint shape_size (s : shape) : nat :=
  match s with ShGroup l _ => S (fold_right (fun x n => shape_size x + n) 0 l) | _ => 1 end.
Example C39_witness : match conv_animation E0 doc1 with
  | Ok c => match layer_at c (None, 1) with
            | Some ly => match ly_content ly with CShape out => map shape_size out = [3] | _ => False end
            | None => False end
  | _ => False end.
Proof. vm_compute. reflexivity. Qed.

(** * C40 *)
Theorem C40_bezier : forall b, bezier_points b (fst (conv_spline b)) /\ snd (conv_spline b) = bezier_closed b.
Proof. intros b. split; [apply conv_spline_points|apply conv_spline_closed]. Qed.
(** Surplus tangents do not matter. *)
Theorem C40_surplus : forall cl v i o i' o',
  List.length i = List.length v -> List.length o = List.length v ->
  conv_spline (mkBezier cl v (i ++ i') (o ++ o')) = conv_spline (mkBezier cl v i o).
Proof.
  intros cl v i o i' o' Hi Ho.
  destruct (C40_bezier (mkBezier cl v (i ++ i') (o ++ o'))) as [[L P] C].
  destruct (C40_bezier (mkBezier cl v i o)) as [[L' P'] C'].
  rewrite (surjective_pairing (conv_spline _)). rewrite (surjective_pairing (conv_spline (mkBezier cl v i o))).
  f_equal.
  apply nth_error_ext. intros n.
  destruct (Nat.lt_ge_cases n (3 * List.length v)) as [Lt|Ge].
  2:{ rewrite (proj2 (nth_error_None _ _)), (proj2 (nth_error_None _ _)); [reflexivity| |]; cbn in *; lia. }
  pose proof (Nat.div_mod n 3 ltac:(lia)) as D. pose proof (Nat.mod_upper_bound n 3 ltac:(lia)) as M.
  set (q := n / 3) in *. clearbody q. assert (Q : q < List.length v) by lia.
  destruct (nth_error v q) as [x|] eqn:X; [|apply nth_error_None in X; lia].
  destruct (P q x X) as (P1 & P2 & P3). destruct (P' q x X) as (Q1 & Q2 & Q3). cbn in P2, P3, Q2, Q3.
  rewrite app_nth1 in P2, P3 by lia.
  assert (M' : n mod 3 = 0 \/ n mod 3 = 1 \/ n mod 3 = 2) by lia.
  destruct M' as [M'|[M'|M']]; rewrite M' in D.
  - replace n with (3 * q) by lia. congruence.
  - replace n with (3 * q + 1) by lia. cbn in *. congruence.
  - replace n with (3 * q + 2) by lia. cbn in *. congruence.
Qed.
Example C40_witness :
  let b := mkBezier (Some true) [(f0, f1); (f1, f1)] [(f1, f0)] [(f0, f0); (f1, f0); (f1, f1)] in
  List.length (fst (conv_spline b)) = 6 /\
  nth_error (fst (conv_spline b)) 4 = Some (mkPoint f0 f0) /\ bezier_closed b = true.
Proof. vm_compute. auto. Qed.

(** * C53 *)
(** What a layer list becomes depends on that list alone. *)
Theorem C53_scopes_independent : forall E a a' c c' s s',
  conv_animation E a = Ok c -> conv_animation E a' = Ok c' ->
  source_layers a s = source_layers a' s' -> scope_layers c s = scope_layers c' s'.
Proof.
  intros E a a' c c' s s' H H' Eq. pose proof (conv_animation_scopes _ _ _ H s) as P.
  pose proof (conv_animation_scopes _ _ _ H' s') as P'. rewrite Eq in P. congruence.
Qed.
Example C53_witness : let a' := doc [] (source_layers doc1 (Some "pre"%string)) in
  (exists c', conv_animation E0 a' = Ok c') /\ ani_layers a' <> ani_layers doc1 /\
  source_layers doc1 (Some "pre"%string) = source_layers a' None.
Proof.
  split; [apply is_ok_ex; vm_compute; reflexivity|]. split; [|reflexivity].
  intros H. apply (f_equal (@List.length _)) in H. discriminate.
Qed.

(** * C54 *)
Theorem C54_layer_contents : forall E a c s i src ly, conv_animation E a = Ok c ->
  nth_error (source_layers a s) i = Some src -> layer_at c (s, i) = Some ly ->
  (exists u, transform_reads [f1; f1; f1] (vl_ks (visual_of src)) u (ly_opacity ly) /\
             stored_transform E u (ly_transform ly)) /\
  ly_blend_mode ly = src_blend src /\
  masks_read (src_masks src) (ly_masks ly) /\
  (~ src_hidden src -> content_reads E src (ly_content ly)).
Proof.
  intros E a c s i src ly H Hs Hl. destruct (conv_animation_reads _ _ _ H s) as [_ R].
  destruct (R i _ ly Hs Hl) as [[] _ _ _ _ C _]. destruct br_transform as (T & _). auto.
Qed.
Example C54_witness : exists src, nth_error (source_layers doc1 None) 3 = Some src /\ ~ src_hidden src /\
  exists c, conv_animation E0 doc1 = Ok c.
Proof. eexists. split; [reflexivity|]. split; [discriminate|]. apply doc1_ok. Qed.

(** * C27 *)
(** In an imported composition every animated property has as many values as
    times ... *)
Theorem C27_well_formed : forall E a c s i ly, conv_animation E a = Ok c ->
  layer_at c (s, i) = Some ly -> layer_wf ly.
Proof.
  intros E a c s i ly H Hl. destruct (scope_source _ _ _ _ _ _ H Hl) as (src & _ & R). apply R.
Qed.
(** ... and such a property with at least one keyframe never takes a default:
    at every frame (NaN included) it interpolates two of its own values. *)
Theorem C27_no_default : forall T `{Tween T} E (a : anim T) frame,
  value_wf (VAnimated a) -> an_times a <> [] ->
  exists i j u v w e, nth_error (an_values a) i = Some u /\ nth_error (an_values a) j = Some v /\
    forall d, eval_or E (VAnimated a) frame d = tween E u v w e.
Proof.
  intros T HT E a frame W N. cbn in W. destruct (frames_some _ frame N) as ([[[[i j] w] e] h] & F).
  destruct (frames_in_bounds _ _ _ _ _ _ _ F) as (Li & Lj & _ & _).
  assert (Li' : i < List.length (an_values a)) by lia.
  assert (Lj' : j < List.length (an_values a)) by (subst j; unfold next_key; lia).
  destruct (nth_error (an_values a) i) as [u|] eqn:U; [|apply nth_error_None in U; lia].
  destruct (nth_error (an_values a) j) as [v|] eqn:V; [|apply nth_error_None in V; lia].
  exists i, j, u, v, (if h then f0 else w), e. split; [exact U|]. split; [exact V|].
  intros d. cbn. unfold anim_eval_or, anim_eval_inner. rewrite F, U, V. reflexivity.
Qed.
(** Every imported scalar property is well-formed. *)
Theorem C27_scalar : forall v w, conv_scalar v = Ok w -> value_wf w /\
  (forall ks, ap_k v = AkAnimated ks -> ks <> [] -> exists a, w = VAnimated a /\ an_times a <> []).
Proof.
  intros v w H. pose proof (spec_ok _ _ _ _ (conv_scalar_spec v) H) as [_ R]. unfold scalar_reads in R.
  destruct (ap_k v) as [ks|n].
  - destruct R as (a & -> & F1 & F2). split.
    + cbn. rewrite <- (Forall2_len _ _ _ F1), <- (Forall2_len _ _ _ F2). reflexivity.
    + intros ks' [= <-] N. exists a. split; [reflexivity|]. intros X. rewrite X in F1. inversion F1. congruence.
  - subst w. split; [exact I|]. discriminate.
Qed.
Example C27_witness : exists w, conv_scalar (animated [kf 0 [f1]; kf 5 [f0]]) = Ok (VAnimated w) /\
  List.length (an_times w) = 2.
Proof. eexists. split; reflexivity. Qed.

(** * C11 *)
(** Import accepts documents on which rendering does not end: a layer that is
    its own matte, and a precomp that instances itself. *)
Definition doc_self_matte : animation :=
  doc [] [AlShape (visual (base "x" (Some 1) None None) (tr_pos 0 0) (Some MmAlpha) None (Some f1)) []].
Definition doc_self_instance : animation :=
  let l := AlPrecomp (visual (base "x" (Some 1) None None) (tr_pos 0 0) None None None) "p"
             (f_of_Z 10) (f_of_Z 10) f0 None in
  doc [AaPrecomp (mkAsset "p" no_vo) [l] None None] [l].
Lemma mbind_oof {A B} (m : M A) (k : A -> M B) r : r_out (m r) = Oof -> r_out (mbind m k r) = Oof.
Proof. unfold mbind. intros H. rewrite H. reflexivity. Qed.
Lemma mbind_emit {B} e (k : unit -> M B) r : r_out (k tt r) = Oof -> r_out (mbind (emit e) k r) = Oof.
Proof. unfold mbind, emit. cbn [r_out r_st r_trace]. intros H. exact H. Qed.
Lemma mbind_ret {A B} (a : A) (k : A -> M B) r : r_out (k a r) = Oof -> r_out (mbind (ret a) k r) = Oof.
Proof. unfold mbind, ret. cbn [r_out r_st r_trace]. intros H. exact H. Qed.
Lemma self_matte_oof E c ly mode set tf alpha frame : in_window ly frame = true ->
  ly_mask_layer ly = Some (mode, 0) -> nth_error set 0 = Some ly ->
  forall fuel idx r, r_out (render_layer E fuel c set ly idx tf alpha frame r) = Oof.
Proof.
  intros W M N. induction fuel as [|fuel IH]; intros idx r; [reflexivity|].
  cbn [render_layer]. rewrite W, M, N. cbn [negb].
  apply mbind_emit, mbind_oof, mbind_emit, mbind_oof, IH.
Qed.
Lemma self_instance_oof E c ly name remap : in_window ly f0 = true ->
  ly_mask_layer ly = None -> ly_masks ly = [] -> ly_content ly = CInstance name remap ->
  ly_is_mask ly = false -> find_asset c name = Some [ly] ->
  ly_stretch ly = f1 -> ly_start_frame ly = f0 ->
  forall fuel set idx tf alpha r, r_out (render_layer E fuel c set ly idx tf alpha f0 r) = Oof.
Proof.
  intros W M K C I F S1 S2. induction fuel as [|fuel IH]; intros set' idx tf alpha r; [reflexivity|].
  cbn [render_layer]. rewrite W, M, K, C, F, S1, S2. cbn [negb rev app forM]. rewrite I.
  replace (fadd (fdiv f0 f1) (fdiv (fneg f0) f1)) with f0 by (vm_compute; reflexivity).
  apply mbind_emit, mbind_ret, mbind_ret, mbind_oof, mbind_oof, IH.
Qed.
Lemma append_oof E fuel c ly frame tf alpha r : co_layers c = [ly] -> ly_is_mask ly = false ->
  (forall r, r_out (render_layer E fuel c [ly] ly 0 tf alpha frame r) = Oof) ->
  r_out (append E fuel c frame tf alpha r) = Oof.
Proof.
  intros C I O. unfold append. rewrite C. unfold enumerate. cbn [List.length seq combine rev app forM]. rewrite I.
  apply mbind_emit, mbind_oof, mbind_oof, O.
Qed.
Theorem C11_refuted : forall E,
  (exists c, conv_animation E doc_self_matte = Ok c /\
     forall fuel tf alpha r, r_out (append E fuel c f0 tf alpha r) = Oof) /\
  (exists c, conv_animation E doc_self_instance = Ok c /\
     forall fuel tf alpha r, r_out (append E fuel c f0 tf alpha r) = Oof).
Proof.
  intros E. split.
  - eexists. split; [reflexivity|]. intros fuel tf alpha r. eapply append_oof; [reflexivity|reflexivity|].
    intros r'. eapply self_matte_oof; reflexivity.
  - eexists. split; [reflexivity|]. intros fuel tf alpha r. eapply append_oof; [reflexivity|reflexivity|].
    intros r'. eapply self_instance_oof; reflexivity.
Qed.
(** What does hold: rendering ends at every frame as soon as no layer depends
    on itself through mattes and precomp instances of the document. *)
Inductive src_refers (a : animation) : pos -> pos -> Prop :=
| sr_matte : forall s i k src, nth_error (source_layers a s) i = Some src ->
    vl_tt (visual_of src) <> None -> matte_for (source_layers a s) i src k -> src_refers a (s, i) (s, k)
| sr_instance : forall s i j vl name w h st tm, nth_error (source_layers a s) i = Some (AlPrecomp vl name w h st tm) ->
    sl_hd (vl_layer vl) <> Some true -> j < List.length (source_layers a (Some name)) ->
    src_refers a (s, i) (Some name, j).
Lemma refers_src E a c p q : conv_animation E a = Ok c -> refers c p q -> src_refers a p q.
Proof.
  intros H R. destruct R as [s i ly mode k m H1 H2 H3|s i ly name remap j m H1 H2 H3].
  - destruct (scope_source _ _ _ _ _ _ H H1) as (src & Hs & L).
    apply (lr_matte _ _ _ _ _ L) in H2. destruct H2 as (t & T & _ & F).
    eapply sr_matte; eauto. congruence.
  - destruct (scope_source _ _ _ _ _ _ H H1) as (src & Hs & L).
    assert (Nh : ~ src_hidden src) by (intros Hh; rewrite (lr_hidden _ _ _ _ _ L Hh) in H2; discriminate).
    pose proof (lr_content _ _ _ _ _ L Nh) as C. rewrite H2 in C. destruct src; cbn in C; try discriminate.
    + destruct C as (x & [= -> ->] & _). eapply sr_instance; [exact Hs|exact Nh|].
      destruct (conv_animation_reads _ _ _ H (Some ref_id)) as [Len _]. rewrite <- Len.
      apply nth_error_Some. unfold layer_at in H3. cbn [fst snd] in H3. congruence.
    + destruct C as (? & ? & _). discriminate.
Qed.
Lemma clos_trans_sub {A} (R R' : A -> A -> Prop) : (forall x y, R x y -> R' x y) ->
  forall x y, clos_trans A R x y -> clos_trans A R' x y.
Proof. intros H x y. induction 1; [constructor; auto|eapply t_trans; eauto]. Qed.
Theorem C11_partial : forall E a c frame tf alpha r, conv_animation E a = Ok c ->
  (forall p, ~ clos_trans pos (src_refers a) p p) ->
  exists fuel, r_out (append E fuel c frame tf alpha r) <> Oof /\
    forall fuel', fuel <= fuel' -> append E fuel' c frame tf alpha r = append E fuel c frame tf alpha r.
Proof.
  intros E a c frame tf alpha r H A. apply C10_terminates. intros p P. apply (A p).
  eapply clos_trans_sub; [|exact P]. intros x y. now apply (refers_src E a c).
Qed.

(** * C12 *)
Theorem C12_implicit_mattes : forall E a c frame tf alpha r, conv_animation E a = Ok c ->
  (forall s src, In src (source_layers a s) -> vl_tp (visual_of src) = None) ->
  (forall s src, In src (source_layers a s) -> match src with AlPrecomp _ _ _ _ _ _ => False | _ => True end) ->
  (forall s i ly mode k, layer_at c (s, i) = Some ly -> ly_mask_layer ly = Some (mode, k) -> k < i) /\
  exists fuel, r_out (append E fuel c frame tf alpha r) <> Oof /\
    forall fuel', fuel <= fuel' -> append E fuel' c frame tf alpha r = append E fuel c frame tf alpha r.
Proof.
  intros E a c frame tf alpha r H Tp Pre.
  assert (Earlier : forall s i k src, nth_error (source_layers a s) i = Some src ->
            matte_for (source_layers a s) i src k -> k < i).
  { intros s i k src Hs F. unfold matte_for, matte_target in F.
    rewrite (Tp s src) in F by (eapply nth_error_In; eauto). apply F. }
  split.
  - intros s i ly mode k Hl Hm. destruct (scope_source _ _ _ _ _ _ H Hl) as (src & Hs & L).
    apply (lr_matte _ _ _ _ _ L) in Hm. destruct Hm as (t & _ & _ & F). eauto.
  - eapply C11_partial; [exact H|].
    assert (R : forall p q, src_refers a p q -> fst q = fst p /\ snd q < snd p).
    { intros p q R. destruct R as [s i k src Hs _ F|s i j vl name w h st tm Hs _ _].
      - split; [reflexivity|]. cbn. eauto.
      - exfalso. apply nth_error_In in Hs. exact (Pre s _ Hs). }
    assert (T : forall p q, clos_trans pos (src_refers a) p q -> snd q < snd p).
    { induction 1; [now apply R|lia]. }
    intros p P. apply T in P. lia.
Qed.
(** The same holds with precomps whose instances do not form a cycle, as long
    as no layer names its matte explicitly. *)
Theorem C12_precomps : forall E a c frame tf alpha r (rank : option string -> nat),
  conv_animation E a = Ok c ->
  (forall s src, In src (source_layers a s) -> vl_tp (visual_of src) = None) ->
  (forall s vl name w h st tm, In (AlPrecomp vl name w h st tm) (source_layers a s) ->
     rank (Some name) < rank s) ->
  exists fuel, r_out (append E fuel c frame tf alpha r) <> Oof /\
    forall fuel', fuel <= fuel' -> append E fuel' c frame tf alpha r = append E fuel c frame tf alpha r.
Proof.
  intros E a c frame tf alpha r rank H Tp Rk. eapply C11_partial; [exact H|].
  assert (R : forall p q, src_refers a p q ->
            rank (fst q) < rank (fst p) \/ fst q = fst p /\ snd q < snd p).
  { intros p q R. destruct R as [s i k src Hs _ F|s i j vl name w h st tm Hs _ _]; cbn.
    - right. split; [reflexivity|]. unfold matte_for, matte_target in F.
      rewrite (Tp s src) in F by (eapply nth_error_In; eauto). apply F.
    - left. eapply Rk. eapply nth_error_In; eauto. }
  assert (T : forall p q, clos_trans pos (src_refers a) p q ->
            rank (fst q) < rank (fst p) \/ fst q = fst p /\ snd q < snd p).
  { induction 1 as [|x y z _ [A|[A1 A2]] _ [B|[B1 B2]]]; [now apply R| | | |].
    - left. lia. - left. rewrite B1. exact A. - left. rewrite <- A1. exact B. - right. split; [congruence|lia]. }
  intros p P. apply T in P. lia.
Qed.
Definition doc_mattes : animation :=
  doc [AaPrecomp (mkAsset "pre" no_vo)
         [AlShape (visual (base "a" (Some 1) None None) (tr_pos 0 0) None None None) [rect_at 1 1; fill_in no_ge]] None None]
      [AlShape (visual (base "matte" (Some 1) None None) (tr_pos 1 2) None (Some BITrue) None) [rect_at 1 2; fill_in no_ge];
       AlPrecomp (visual (base "inst" (Some 4) (Some 2) None) (tr_pos 0 0) (Some MmAlpha) None None) "pre"
         (f_of_Z 100) (f_of_Z 100) f0 None].
Example C12_witness :
  let rank s := match s with None => 1 | Some _ => 0 end in
  (exists c, conv_animation E0 doc_mattes = Ok c) /\
  (forall s src, In src (source_layers doc_mattes s) -> vl_tp (visual_of src) = None) /\
  (forall s vl name w h st tm, In (AlPrecomp vl name w h st tm) (source_layers doc_mattes s) ->
     rank (Some name) < rank s).
Proof.
  split; [apply is_ok_ex; vm_compute; reflexivity|]. split.
  - intros [n|] src; unfold source_layers; cbn [assets_of doc_mattes doc ani_assets asset_layers ani_layers ass_id].
    + destruct (String.eqb "pre" n); [intros [<-|[]]; reflexivity|intros []].
    + intros [<-|[<-|[]]]; reflexivity.
  - intros [n|] vl name w h st tm; unfold source_layers;
      cbn [assets_of doc_mattes doc ani_assets asset_layers ani_layers ass_id].
    + destruct (String.eqb "pre" n); [intros [X|[]]; discriminate|intros []].
    + intros [X|[X|[]]]; [discriminate|lia].
Qed.
Definition doc_simple : animation := doc [] (firstn 1 (ani_layers doc_mattes)).
Example C12_witness_simple :
  (exists c, conv_animation E0 doc_simple = Ok c) /\
  (forall s src, In src (source_layers doc_simple s) -> vl_tp (visual_of src) = None) /\
  (forall s src, In src (source_layers doc_simple s) -> match src with AlPrecomp _ _ _ _ _ _ => False | _ => True end).
Proof.
  split; [apply is_ok_ex; vm_compute; reflexivity|]. split; intros [n|] src; cbn; try tauto.
  - intros [<-|[]]. reflexivity.
  - intros [<-|[]]. exact I.
Qed.
