(** Rendering a frame gives exactly the calls of FrameSpec.v. *)
From Coq Require Import ZArith Bool List Arith String Lia.
From Verif Require Import F64 Kurbo Value Animated Batch Render RenderSpec RenderFacts RenderFacts2 RenderFacts3
  BatchSpec BatchFacts BatchRefine BatchFacts2 FrameSpec Examples PropRender PropBatch.
Import ListNotations.
Open Scope list_scope.
Open Scope nat_scope.

Scheme layer_mind := Induction for frame_layer Sort Prop
with matte_mind := Induction for frame_matte Sort Prop
with content_mind := Induction for frame_content Sort Prop
with layers_mind := Induction for frame_layers Sort Prop.
Combined Scheme frame_mind from layer_mind, matte_mind, content_mind, layers_mind.

(** * Placement *)
Lemma chain_lineage E set frame : forall fuel o tf, exists ps,
  (ancestors set o ps \/ ancestors_upto set o ps /\ List.length ps = fuel) /\
  parent_chain E set frame fuel o tf = chain_product E frame ps tf.
Proof.
  induction fuel as [|fuel IH]; intros o tf.
  - exists []. split; [right; split; [constructor|reflexivity]|]. destruct o; reflexivity.
  - destruct o as [i|]; cbn [parent_chain].
    + destruct (nth_error set i) as [p|] eqn:N.
      * destruct (IH (ly_parent p) (affine_mul (transform_eval E (ly_transform p) frame) tf)) as (ps & H & Eq).
        exists (p :: ps). split; [|exact Eq]. destruct H as [H|[H L]].
        -- left. eapply anc_step; eauto.
        -- right. split; [eapply ancu_step; eauto|cbn; now rewrite L].
      * exists []. split; [left; now apply anc_missing|reflexivity].
    + exists []. split; [left; constructor|reflexivity].
Qed.
Lemma upto_fun set : forall ps o qs, ancestors_upto set o ps -> ancestors_upto set o qs ->
  List.length ps = List.length qs -> ps = qs.
Proof.
  induction ps as [|p ps IH]; intros o [|q qs] A B L; try discriminate; [reflexivity|].
  inversion A; subst. inversion B; subst. assert (q = p) as -> by congruence. f_equal.
  injection L as L. eapply IH; eauto.
Qed.
Lemma lineage_fun set o ps qs : lineage set o ps -> lineage set o qs -> ps = qs.
Proof.
  intros [A|(A & B & C)] [A'|(A' & B' & C')].
  - eapply ancestors_fun; eauto.
  - now elim (A' ps).
  - now elim (A qs).
  - eapply upto_fun; eauto. congruence.
Qed.
Lemma placement_compute E set ly outer frame tf :
  placement E set ly outer frame tf <-> tf = compute_transform E set ly outer frame.
Proof.
  assert (X : exists ps, lineage set (ly_parent ly) ps /\ compute_transform E set ly outer frame =
    affine_mul outer (chain_product E frame ps (transform_eval E (ly_transform ly) frame))).
  { destruct (Classical_Prop.classic (exists qs, ancestors set (ly_parent ly) qs)) as [(qs & Q)|Q].
    - exists qs. split; [now left|]. now apply compute_transform_chain.
    - destruct (chain_lineage E set frame (List.length set) (ly_parent ly) (transform_eval E (ly_transform ly) frame))
        as (ps & [H|[H L]] & Eq); [now elim Q; exists ps|].
      exists ps. split; [right; split; [intros qs X; apply Q; eauto|auto]|]. unfold compute_transform. now rewrite Eq. }
  destruct X as (ps & L & Eq). split.
  - intros (qs & L' & ->). now rewrite (lineage_fun _ _ _ _ L' L).
  - intros ->. exists ps. auto.
Qed.

(** * Layers *)
Lemma pops n (paths : list (list path_el)) (b : bool) : List.length paths = n ->
  repeat EvPop (n + if b then 2 else 0) = map (fun _ => EvPop) paths ++ if b then [EvPop; EvPop] else [].
Proof.
  intros <-. rewrite repeat_app. f_equal; [|destruct b; reflexivity].
  induction paths; cbn; congruence.
Qed.
Lemma Forall2_len {A B} (R : A -> B -> Prop) l l' : Forall2 R l l' -> List.length l' = List.length l.
Proof. induction 1; cbn; congruence. Qed.
Lemma shown_map ls : shown (map (fun ly : layer => (0, ly)) ls) = map (fun ly => (0, ly)) (visible ly_is_mask (rev ls)).
Proof.
  unfold shown, visible. rewrite <- map_rev. induction (rev ls) as [|x l IH]; [reflexivity|].
  cbn [map filter snd]. destruct (negb (ly_is_mask x)); cbn [map]; now rewrite IH.
Qed.

(** The content rule describes [content_draws]. *)
Definition good_set (E : Ext) (c : composition) (set : list layer) : Prop :=
  Forall (fun ly => match ly_content ly with
                    | CShape shs => Forall (all_geometry (sound_geometry E)) shs /\ forall frame tf, no_clash E frame tf shs
                    | _ => True
                    end) set.
Lemma good_scope E c s : sound_comp E c -> never_clash E c -> good_set E c (scope_layers c s).
Proof.
  intros [S1 S2] N. apply Forall_forall. intros ly Hin. apply In_nth_error in Hin as (i & Hi).
  assert (Snd : sound_layer E ly).
  { destruct s as [n|]; cbn [scope_layers] in Hi.
    - unfold find_asset in Hi. destruct (find _ (co_assets c)) as [[k l]|] eqn:F; [|destruct i; discriminate].
      apply find_some in F. destruct F as [F _]. rewrite Forall_forall in S2. specialize (S2 _ F). cbn in S2.
      rewrite Forall_forall in S2. apply S2. eapply nth_error_In; eauto.
    - rewrite Forall_forall in S1. apply S1. eapply nth_error_In; eauto. }
  destruct (ly_content ly) as [| |shs] eqn:Ct; auto. split.
  - destruct Snd as [_ Snd]. now rewrite Ct in Snd.
  - apply (N (s, i) ly shs); auto.
Qed.
Lemma concat_bound {A} (l : list (list A)) e : In e l -> List.length e <= List.length (List.concat l).
Proof.
  induction l as [|x l IH]; [easy|]. cbn [List.concat]. rewrite app_length. intros [->|H]; [lia|].
  specialize (IH H). lia.
Qed.

Section Reference.
  Variable E : Ext.
  Variable c : composition.
  Hypothesis Snd : sound_comp E c.
  Hypothesis Ncl : never_clash E c.

  Lemma shapes_content s ly shs tf alpha frame inner :
    In ly (scope_layers c s) -> ly_content ly = CShape shs ->
    ((exists b ps, render_shapes E shs tf alpha frame batch_empty = Ok b /\
                   batch_render E b = Ok ps /\ inner = map EvDraw ps) <->
     exists p, shapes_pic E tf alpha frame shs = Ok p /\ inner = map EvDraw (pic_paints E p)).
  Proof.
    intros Hin Ct. pose proof (good_scope E c s Snd Ncl) as G. unfold good_set in G. rewrite Forall_forall in G.
    specialize (G _ Hin). rewrite Ct in G. destruct G as [G1 G2].
    destruct (layer_paints_pic E tf alpha frame shs G1 (G2 frame tf)) as (p & P1 & P2).
    unfold layer_paints in P2. destruct (render_shapes E shs tf alpha frame batch_empty) as [b| |]; try discriminate.
    cbn [bind] in P2. split.
    - intros (b' & ps & [= <-] & R & ->). exists p. split; [exact P1|]. congruence.
    - intros (p' & P & ->). exists b, (pic_paints E p). repeat split; auto. congruence.
  Qed.

  (** Calls to rules, by the number of calls. *)
  Lemma draws_frame : forall n s ly idx outer alpha frame es, List.length es <= n ->
    In ly (scope_layers c s) -> layer_draws E c (scope_layers c s) ly idx outer alpha frame es ->
    frame_layer E c (scope_layers c s) ly idx outer alpha frame es.
  Proof.
    induction n as [n IH] using lt_wf_ind. intros s ly idx outer alpha frame es Hn Hin D.
    destruct (in_window ly frame) eqn:W.
    2:{ assert (Na : ~ active ly frame) by (rewrite active_in_window; congruence).
        apply layer_draws_inactive in D; [|exact Na]. subst es. now constructor. }
    apply active_in_window in W. apply layer_draws_active in D; [|exact W].
    destruct D as (matte & clips & inner & Dm & (paths & Fp & ->) & Di & ->).
    assert (Lb : List.length matte + List.length inner < n).
    { cbn [List.length] in Hn. rewrite !app_length in Hn. lia. }
    replace (match ly_mask_layer ly with Some _ => 2 | None => 0 end) with
            (if (match ly_mask_layer ly with Some _ => true | None => false end) then 2 else 0)
      by (destruct (ly_mask_layer ly); reflexivity).
    rewrite (pops _ paths) by (now apply Forall2_len in Fp).
    replace (if (match ly_mask_layer ly with Some _ => true | None => false end) then [EvPop; EvPop] else [])
      with (if ly_mask_layer ly then [EvPop; EvPop] else []) by (destruct (ly_mask_layer ly); reflexivity).
    rewrite <- !app_assoc.
    apply (fl_present E c (scope_layers c s) ly idx outer alpha frame _ matte paths inner W).
    - now apply placement_compute.
    - unfold matte_draws in Dm. destruct (ly_mask_layer ly) as [[mode k]|] eqn:Em.
      + destruct Dm as (m & Dm & ->). destruct (nth_error (scope_layers c s) k) as [mly|] eqn:N.
        * apply (fm_some E c _ _ _ _ _ mode k mly m Em N).
          apply (IH (List.length m)); [|lia|eapply nth_error_In; eauto|exact Dm].
          cbn [List.length] in Lb. rewrite app_length in Lb. lia.
        * subst m. apply (fm_dangling E c _ _ _ _ _ mode k Em N).
      + subst matte. now apply fm_none.
    - exact Fp.
    - unfold content_draws in Di. destruct (ly_content ly) as [|name remap|shs] eqn:Ct.
      + subst inner. constructor.
      + destruct (find_asset c name) as [ls|] eqn:Fa.
        * destruct Di as (ess & F & ->). apply (fc_instance E c name remap ls); [exact Fa|].
          rewrite shown_map.
          assert (Lc : forall e, In e ess -> List.length e < n).
          { intros e He. pose proof (concat_bound _ _ He). lia. }
          assert (Hs : forall x, In x (visible ly_is_mask (rev ls)) -> In x (scope_layers c (Some name))).
          { intros x Hx. unfold visible in Hx. apply filter_In in Hx. destruct Hx as [Hx _].
            cbn [scope_layers]. rewrite Fa. now apply in_rev. }
          assert (Sc : scope_layers c (Some name) = ls) by (cbn [scope_layers]; now rewrite Fa).
          clear Lb Hn. revert Lc Hs. induction F as [|x e l ess Hx F IHF]; intros Lc Hs; cbn [map List.concat]; [constructor|].
          constructor.
          -- rewrite <- Sc. apply (IH (List.length e)); [apply Lc; now left|lia|apply Hs; now left|].
             rewrite Sc. exact Hx.
          -- apply IHF; [intros e' He; apply Lc; now right|intros y Hy; apply Hs; now right].
        * subst inner. now constructor.
      + apply (shapes_content s ly shs) in Di; [|exact Hin|exact Ct]. destruct Di as (p & P & ->). now constructor.
  Qed.

  (** Rules to calls. *)
  Lemma frame_draws :
    (forall set ly idx outer alpha frame es, frame_layer E c set ly idx outer alpha frame es ->
       forall s, set = scope_layers c s -> In ly set -> layer_draws E c set ly idx outer alpha frame es) /\
    (forall set ly outer alpha frame es, frame_matte E c set ly outer alpha frame es ->
       forall s, set = scope_layers c s -> matte_draws E c set ly outer alpha frame es) /\
    (forall ct tf alpha frame inner_frame es, frame_content E c ct tf alpha frame inner_frame es ->
       forall s ly, In ly (scope_layers c s) -> ly_content ly = ct -> inner_frame = inner_time ly frame ->
       content_draws E c ly tf alpha frame es) /\
    (forall set l tf alpha frame es, frame_layers E c set l tf alpha frame es ->
       forall s, set = scope_layers c s -> Forall (fun p => In (snd p) set) l ->
       exists ess, Forall2 (fun p e => layer_draws E c set (snd p) (fst p) tf alpha frame e) l ess /\ es = List.concat ess).
  Proof.
    apply (frame_mind E c
      (fun set ly idx outer alpha frame es _ =>
         forall s, set = scope_layers c s -> In ly set -> layer_draws E c set ly idx outer alpha frame es)
      (fun set ly outer alpha frame es _ =>
         forall s, set = scope_layers c s -> matte_draws E c set ly outer alpha frame es)
      (fun ct tf alpha frame inner_frame es _ =>
         forall s ly, In ly (scope_layers c s) -> ly_content ly = ct -> inner_frame = inner_time ly frame ->
         content_draws E c ly tf alpha frame es)
      (fun set l tf alpha frame es _ =>
         forall s, set = scope_layers c s -> Forall (fun p => In (snd p) set) l ->
         exists ess, Forall2 (fun p e => layer_draws E c set (snd p) (fst p) tf alpha frame e) l ess /\ es = List.concat ess)).
    - intros set ly idx outer alpha frame Na s Hs Hin. now apply layer_draws_inactive.
    - intros set ly idx outer alpha frame tf matte paths inner Ha Hp Hm IHm Fp Hc IHc s Hs Hin.
      apply placement_compute in Hp. subst tf. apply layer_draws_active; [exact Ha|].
      exists matte, (map (fun p => EvPushClip (compute_transform E set ly outer frame) (SkPath p)) paths), inner.
      split; [eapply IHm; eauto|]. split; [exists paths; auto|]. split.
      + apply (IHc s ly); auto. now rewrite <- Hs.
      + cbn [app]. f_equal. f_equal. f_equal. f_equal.
        replace (match ly_mask_layer ly with Some _ => 2 | None => 0 end) with
            (if (match ly_mask_layer ly with Some _ => true | None => false end) then 2 else 0)
          by (destruct (ly_mask_layer ly); reflexivity).
        rewrite (pops _ paths) by (now apply Forall2_len in Fp).
        destruct (ly_mask_layer ly); now rewrite <- app_assoc.
    - intros set ly outer alpha frame Em s Hs. unfold matte_draws. now rewrite Em.
    - intros set ly outer alpha frame mode k m es Em N Hl IHl s Hs. unfold matte_draws. rewrite Em, N. exists es.
      split; [|reflexivity]. apply (IHl s); auto. eapply nth_error_In; eauto.
    - intros set ly outer alpha frame mode k Em N s Hs. unfold matte_draws. rewrite Em, N. exists []. auto.
    - intros tf alpha frame inner_frame s ly Hin Ct Hi. unfold content_draws. now rewrite Ct.
    - intros shs tf alpha frame inner_frame p P s ly Hin Ct Hi. unfold content_draws. rewrite Ct.
      apply (shapes_content s ly shs); auto. exists p. auto.
    - intros name remap tf alpha frame inner_frame Fa s ly Hin Ct Hi. unfold content_draws. now rewrite Ct, Fa.
    - intros name remap ls tf alpha frame inner_frame es Fa Hl IHl s ly Hin Ct Hi. unfold content_draws. rewrite Ct, Fa.
      destruct (IHl (Some name)) as (ess & F & ->).
      + cbn [scope_layers]. now rewrite Fa.
      + rewrite shown_map. apply Forall_map. apply Forall_forall. intros x Hx. cbn [snd].
        unfold visible in Hx. apply filter_In in Hx. destruct Hx as [Hx _]. now apply in_rev.
      + exists ess. split; [|reflexivity]. rewrite shown_map in F. rewrite Hi in F. unfold inner_time in F.
        clear - F. revert F. generalize (visible ly_is_mask (rev ls)). intros l.
        revert ess. induction l as [|x l IH]; intros ess F; cbn [map] in F; inversion F; subst; constructor; auto.
    - intros set tf alpha frame s Hs Hl. exists []. auto.
    - intros set i ly l tf alpha frame es es' Hl IHl Hls IHls s Hs F. inversion F; subst.
      destruct (IHls s eq_refl H2) as (ess & F' & ->). exists (es :: ess). split; [|reflexivity].
      constructor; [|exact F']. cbn [fst snd]. eapply IHl; eauto.
  Qed.

  Lemma layers_frame : forall l tf alpha frame ess,
    Forall2 (fun p e => layer_draws E c (co_layers c) (snd p) (fst p) tf alpha frame e) l ess ->
    Forall (fun p => In (snd p) (co_layers c)) l ->
    frame_layers E c (co_layers c) l tf alpha frame (List.concat ess).
  Proof.
    induction 1 as [|[i x] e l ess Hx F IH]; intros G; cbn [List.concat]; [constructor|]. inversion G; subst.
    constructor; [|now apply IH]. apply (draws_frame (List.length e) None); auto.
  Qed.
  Lemma enumerated_in : Forall (fun p : nat * layer => In (snd p) (co_layers c))
    (shown (combine (seq 0 (List.length (co_layers c))) (co_layers c))).
  Proof.
    apply Forall_forall. intros [i x] H. unfold shown in H. apply filter_In in H. destruct H as [H _].
    apply in_rev in H. now apply in_combine_r in H.
  Qed.
  Lemma reference frame tf alpha r es : rn_mask r = [] ->
    (append_draws E c frame tf alpha r es <-> frame_picture E c frame tf alpha es).
  Proof.
    intros Hr. rewrite append_draws_iff by exact Hr. unfold frame_picture. split.
    - intros (ess & F & ->). exists (List.concat ess). split; [|reflexivity].
      apply layers_frame; [exact F|]. exact enumerated_in.
    - intros (body & H & ->).
      destruct (proj2 (proj2 (proj2 frame_draws)) _ _ _ _ _ _ H None eq_refl enumerated_in) as (ess & F & ->).
      exists ess. split; [exact F|reflexivity].
  Qed.
End Reference.

(** * C67 *)
(** A frame is painted exactly as the rules of FrameSpec.v say, by any renderer
    that was used before without a crash. *)
Theorem C67_reference : forall E c frame tf alpha r es,
  sound_comp E c -> never_clash E c -> used r ->
  (append_draws E c frame tf alpha r es <-> frame_picture E c frame tf alpha es).
Proof. intros E c frame tf alpha r es S N U. apply reference; auto. now rewrite (used_clean r U). Qed.
(** The rules leave no choice ... *)
Theorem C67_unique : forall E c frame tf alpha es es',
  sound_comp E c -> never_clash E c ->
  frame_picture E c frame tf alpha es -> frame_picture E c frame tf alpha es' -> es = es'.
Proof.
  intros E c frame tf alpha es es' S N H H'.
  apply (reference E c S N frame tf alpha renderer_new _ eq_refl) in H, H'.
  destruct H as (f & H1 & H2), H' as (f' & H1' & H2').
  rewrite <- H2, <- H2'. f_equal. apply C10_budget_irrelevant; congruence.
Qed.
(** ... and describe a picture whenever no layer refers to itself. *)
Theorem C67_total : forall E c frame tf alpha,
  sound_comp E c -> never_clash E c -> acyclic c ->
  exists es, frame_picture E c frame tf alpha es.
Proof.
  intros E c frame tf alpha S N A.
  destruct (C10_terminates E c frame tf alpha renderer_new A) as (fuel & H & _).
  pose proof (append_no_panic E fuel c frame tf alpha S) as P.
  exists (events (append E fuel c frame tf alpha renderer_new)).
  apply (reference E c S N frame tf alpha renderer_new _ eq_refl). exists fuel. split; [|reflexivity].
  destruct (r_out (append E fuel c frame tf alpha renderer_new)) as [[]| |]; congruence.
Qed.
Example C67_applies : sound_comp E0 comp1 /\ never_clash E0 comp1 /\ acyclic comp1 /\
  forall frame tf alpha, exists es, frame_picture E0 comp1 frame tf alpha es.
Proof.
  assert (S : sound_comp E0 comp1).
  { split; unfold comp1; cbn [co_layers co_assets]; repeat constructor; try (intros; discriminate);
      try (intros fr; eexists; split; [reflexivity|vm_compute; reflexivity]). }
  assert (N : never_clash E0 comp1).
  { intros [s i] ly shs H Ct frame tf. unfold layer_at in H. cbn [fst snd] in H.
    destruct s as [n|]; cbn [scope_layers] in H.
    - unfold find_asset, comp1 in H. cbn [co_assets find fst] in H. destruct (String.eqb "pre" n); [|destruct i; discriminate].
      destruct i as [|[|[|]]]; try discriminate; cbn in H; injection H as <-; cbn in Ct; injection Ct as <-; discriminate.
    - unfold comp1 in H. cbn [co_layers] in H.
      destruct i as [|[|[|[|]]]]; try discriminate; cbn in H; injection H as <-; cbn in Ct; try discriminate; injection Ct as <-;
        discriminate. }
  split; [exact S|]. split; [exact N|]. split; [exact C10_applies|].
  intros frame tf alpha. apply C67_total; auto using C10_applies.
Qed.
