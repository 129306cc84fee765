(** Facts about the importer, part 4: references between layers, assets. *)
From Coq Require Import ZArith Bool List Arith String Lia.
From Flocq Require Import Core BinarySingleNaN.
From Verif Require Import F64 Kurbo Value Animated Render RenderSpec ValueSpec
  Schema Import ImportSpec ImportFacts ImportFacts2 ImportFacts3.
Import ListNotations.
Open Scope list_scope.
Open Scope nat_scope.

Lemma Forall2_nth_l {A B} (R : A -> B -> Prop) l l' i a :
  Forall2 R l l' -> nth_error l i = Some a -> exists b, nth_error l' i = Some b /\ R a b.
Proof.
  intros H. revert i. induction H; intros [|i] Hi; try discriminate; cbn in *.
  - injection Hi as ->. eauto.
  - auto.
Qed.
Lemma Forall2_nth_r {A B} (R : A -> B -> Prop) l l' i b :
  Forall2 R l l' -> nth_error l' i = Some b -> exists a, nth_error l i = Some a /\ R a b.
Proof.
  intros H. revert i. induction H; intros [|i] Hi; try discriminate; cbn in *.
  - injection Hi as ->. eauto.
  - auto.
Qed.

Lemma nth_error_ext {A} : forall l l' : list A, (forall n, nth_error l n = nth_error l' n) -> l = l'.
Proof.
  induction l as [|a l IH]; intros [|b l'] H; [reflexivity|specialize (H 0); discriminate|specialize (H 0); discriminate|].
  f_equal; [specialize (H 0); cbn in H; congruence|]. apply IH. intros n. exact (H (S n)).
Qed.

(** * Ids *)

Definition last_id (l : list converted) (id k : nat) : Prop :=
  (exists cv, nth_error l k = Some cv /\ cv_id cv = id) /\
  forall j cv, k < j -> nth_error l j = Some cv -> cv_id cv <> id.
Lemma build_idmap_get : forall l index m id k,
  idmap_get id (build_idmap index l m) = Some k <->
  (exists j, k = index + j /\ last_id l id j) \/
  ((forall j cv, nth_error l j = Some cv -> cv_id cv <> id) /\ idmap_get id m = Some k).
Proof.
  induction l as [|cv l IH]; intros index m id k; cbn [build_idmap].
  - split.
    + intros H. right. split; [intros [|?]; discriminate|exact H].
    + intros [(j & _ & (cv & H & _) & _)|[_ H]]; [destruct j; discriminate|exact H].
  - rewrite IH. unfold idmap_insert. split.
    + intros [(j & -> & (c & H1 & H2) & H3)|[H1 H2]].
      * left. exists (S j). split; [lia|]. split; [exists c; auto|].
        intros [|i] c' L Hc; [lia|]. apply (H3 i); [lia|exact Hc].
      * unfold idmap_get in H2. cbn in H2. destruct (Nat.eqb_spec (cv_id cv) id) as [Eq|Ne].
        -- injection H2 as <-. left. exists 0. split; [lia|]. split; [exists cv; auto|].
           intros [|i] c' L Hc; [lia|]. now apply (H1 i).
        -- right. split; [|exact H2]. intros [|j] c Hc; [injection Hc as <-; exact Ne|now apply (H1 j)].
    + intros [(j & -> & (c & H1 & H2) & H3)|[H1 H2]].
      * destruct j as [|j].
        -- right. injection H1 as ->. split.
           ++ intros j c' Hc. apply (H3 (S j)); [lia|exact Hc].
           ++ unfold idmap_get. cbn. rewrite H2, Nat.eqb_refl. f_equal. lia.
        -- left. exists j. split; [lia|]. split; [exists c; auto|].
           intros i c' L Hc. apply (H3 (S i)); [lia|exact Hc].
      * right. split; [intros j c Hc; apply (H1 (S j)); exact Hc|].
        unfold idmap_get in *. cbn. destruct (Nat.eqb_spec (cv_id cv) id) as [Eq|Ne]; [|exact H2].
        exfalso. now apply (H1 0 cv eq_refl).
Qed.
Lemma idmap_last l id k : idmap_get id (build_idmap 0 l []) = Some k <-> last_id l id k.
Proof.
  rewrite build_idmap_get. split.
  - intros [(j & -> & H)|[_ H]]; [exact H|discriminate].
  - intros H. left. exists k. auto.
Qed.

(** * Mattes *)

Definition matte_step (idx : nat) (cv : converted) (prev : option nat) : option nat :=
  if ly_is_mask (cv_layer cv) then Some idx
  else match cv_matte cv with Some _ => None | None => prev end.
Fixpoint matte_state (idx : nat) (prev : option nat) (l : list converted) (i : nat) : option nat :=
  match i, l with
  | S i, cv :: l => matte_state (S idx) (matte_step idx cv prev) l i
  | _, _ => prev
  end.
Definition resolved (m : idmap) (prev : option nat) (cv : converted) : layer :=
  let ly := cv_layer cv in
  with_refs ly
    (match ly_parent ly with Some p => idmap_get p m | None => None end)
    (match cv_matte cv with
     | Some mode =>
         match (match cv_matte_ix cv with Some e => idmap_get e m | None => prev end) with
         | Some k => Some (mode, k)
         | None => ly_mask_layer ly
         end
     | None => ly_mask_layer ly
     end).
Lemma resolve_nth m : forall l idx prev i,
  nth_error (resolve m idx prev l) i =
  match nth_error l i with Some cv => Some (resolved m (matte_state idx prev l i) cv) | None => None end.
Proof.
  induction l as [|cv l IH]; intros idx prev [|i]; try reflexivity.
  cbn [resolve nth_error matte_state]. apply IH.
Qed.
Lemma resolve_length m : forall l idx prev, List.length (resolve m idx prev l) = List.length l.
Proof. induction l as [|cv l IH]; intros; cbn [resolve List.length]; [reflexivity|now rewrite IH]. Qed.
Lemma matte_state_S : forall l idx prev i cv, nth_error l i = Some cv ->
  matte_state idx prev l (S i) = matte_step (idx + i) cv (matte_state idx prev l i).
Proof.
  induction l as [|c l IH]; intros idx prev [|i] cv H; try discriminate.
  - injection H as ->. cbn. destruct l; now rewrite Nat.add_0_r.
  - cbn [nth_error] in H. replace (idx + S i) with (S idx + i) by lia.
    change (matte_state idx prev (c :: l) (S (S i))) with (matte_state (S idx) (matte_step idx c prev) l (S i)).
    change (matte_state idx prev (c :: l) (S i)) with (matte_state (S idx) (matte_step idx c prev) l i).
    now apply IH.
Qed.
Definition nearest (l : list converted) (i k : nat) : Prop :=
  k < i /\ (exists cv, nth_error l k = Some cv /\ ly_is_mask (cv_layer cv) = true) /\
  forall j cv, k < j < i -> nth_error l j = Some cv ->
    ly_is_mask (cv_layer cv) = false /\ cv_matte cv = None.
Lemma matte_state_nearest l : forall i, i <= List.length l -> forall k,
  matte_state 0 None l i = Some k <-> nearest l i k.
Proof.
  induction i as [|i IH]; intros L k.
  - destruct l; cbn; split; try discriminate; intros (H & _); lia.
  - destruct (nth_error l i) as [cv|] eqn:N; [|apply nth_error_None in N; lia].
    rewrite (matte_state_S l 0 None i cv N). unfold matte_step. cbn [Nat.add].
    destruct (ly_is_mask (cv_layer cv)) eqn:M.
    + split.
      * intros [= <-]. split; [lia|]. split; [eauto|]. intros j c' [? ?]. lia.
      * intros (H1 & _ & H3). f_equal. destruct (Nat.eq_dec i k) as [|Ne]; [assumption|].
        destruct (H3 i cv) as [H _]; [lia|exact N|congruence].
    + destruct (cv_matte cv) as [b|] eqn:T.
      * split; [discriminate|]. intros (H1 & (c' & H2 & H2') & H3).
        destruct (Nat.eq_dec i k) as [->|Ne]; [congruence|].
        destruct (H3 i cv) as [_ H]; [lia|exact N|congruence].
      * rewrite IH by lia. split.
        -- intros (H1 & H2 & H3). split; [lia|]. split; [exact H2|]. intros j c' Lj Hj.
           destruct (Nat.eq_dec j i) as [->|Ne]; [rewrite N in Hj; injection Hj as <-; auto|].
           apply (H3 j); [lia|exact Hj].
        -- intros (H1 & (c' & H2 & H2') & H3). destruct (Nat.eq_dec i k) as [->|Ne]; [congruence|].
           split; [lia|]. split; [eauto|]. intros j c'' Lj. apply H3. lia.
Qed.

(** * A layer list *)

Record layer_reads (E : Ext) (srcs : list any_layer) (i : nat) (src : any_layer) (ly : layer) : Prop := {
  lr_base : base_reads E src ly;
  lr_parent : forall k, ly_parent ly = Some k <->
    exists p, sl_parent (base_of src) = Some p /\ last_with_id srcs p k;
  lr_matte : forall mode k, ly_mask_layer ly = Some (mode, k) <->
    exists t, vl_tt (visual_of src) = Some t /\ mode = matte_blend t /\ matte_for srcs i src k;
  lr_is_mask : ly_is_mask ly = true <-> matte_source src;
  lr_hidden : src_hidden src -> ly_content ly = CNone;
  lr_content : ~ src_hidden src -> content_reads E src (ly_content ly);
  lr_wf : layer_wf ly }.

Lemma last_id_src E srcs conv id k : Forall2 (conv_reads E) srcs conv -> (last_id conv id k <-> last_with_id srcs id k).
Proof.
  intros F. unfold last_id, last_with_id. split.
  - intros [(cv & H1 & H2) H3]. split.
    + destruct (Forall2_nth_r _ _ _ _ _ F H1) as (src & S1 & S2). exists src. split; [exact S1|].
      now rewrite <- (cr_id _ _ _ S2).
    + intros j l L Hl. destruct (Forall2_nth_l _ _ _ _ _ F Hl) as (cv' & S1 & S2).
      rewrite <- (cr_id _ _ _ S2). now apply (H3 j).
  - intros [(src & H1 & H2) H3]. split.
    + destruct (Forall2_nth_l _ _ _ _ _ F H1) as (cv & S1 & S2). exists cv. split; [exact S1|].
      now rewrite (cr_id _ _ _ S2).
    + intros j cv L Hl. destruct (Forall2_nth_r _ _ _ _ _ F Hl) as (src' & S1 & S2).
      rewrite (cr_id _ _ _ S2). now apply (H3 j).
Qed.
Lemma is_mask_false E src cv : conv_reads E src cv -> (ly_is_mask (cv_layer cv) = false <-> ~ matte_source src).
Proof. intros C. rewrite <- (cr_is_mask _ _ _ C). destruct (ly_is_mask (cv_layer cv)); split; try congruence; try easy; intros H; exfalso; now apply H. Qed.
Lemma matte_none E src cv : conv_reads E src cv -> (cv_matte cv = None <-> vl_tt (visual_of src) = None).
Proof. intros C. rewrite (cr_matte _ _ _ C). destruct (vl_tt (visual_of src)); split; congruence. Qed.
Lemma nearest_src E srcs conv i k : Forall2 (conv_reads E) srcs conv -> (nearest conv i k <-> nearest_matte srcs i k).
Proof.
  intros F. unfold nearest, nearest_matte. split.
  - intros (H0 & (cv & H1 & H2) & H3). split; [exact H0|]. split.
    + destruct (Forall2_nth_r _ _ _ _ _ F H1) as (src & S1 & S2). exists src. split; [exact S1|].
      now apply (cr_is_mask _ _ _ S2).
    + intros j l L Hl. destruct (Forall2_nth_l _ _ _ _ _ F Hl) as (cv' & S1 & S2).
      destruct (H3 j cv' L S1) as [A B]. split; [now apply (is_mask_false _ _ _ S2)|now apply (matte_none _ _ _ S2)].
  - intros (H0 & (src & H1 & H2) & H3). split; [exact H0|]. split.
    + destruct (Forall2_nth_l _ _ _ _ _ F H1) as (cv & S1 & S2). exists cv. split; [exact S1|].
      now apply (cr_is_mask _ _ _ S2).
    + intros j cv L Hl. destruct (Forall2_nth_r _ _ _ _ _ F Hl) as (src' & S1 & S2).
      destruct (H3 j src' L S1) as [A B]. split; [now apply (is_mask_false _ _ _ S2)|now apply (matte_none _ _ _ S2)].
Qed.

Lemma mapM_conv E srcs conv : mapM (conv_layer E) srcs = Ok conv -> Forall2 (conv_reads E) srcs conv.
Proof.
  intros H. eapply (spec_ok _ _ _ _ (spec_mapM (conv_layer E) layer_supported (conv_reads E) srcs
    (fun x _ => conv_layer_spec E x))) in H. apply H.
Qed.
Lemma process_layers_ok E srcs lys : process_layers E srcs = Ok lys ->
  exists conv, mapM (conv_layer E) srcs = Ok conv /\ lys = resolve (build_idmap 0 conv []) 0 None conv.
Proof.
  unfold process_layers. destruct (mapM (conv_layer E) srcs) as [conv| |]; cbn; try discriminate.
  intros [= <-]. eauto.
Qed.
Lemma process_layers_reads E srcs lys : process_layers E srcs = Ok lys ->
  List.length lys = List.length srcs /\
  forall i src ly, nth_error srcs i = Some src -> nth_error lys i = Some ly -> layer_reads E srcs i src ly.
Proof.
  intros H. apply process_layers_ok in H. destruct H as (conv & H & ->). apply mapM_conv in H.
  split; [rewrite resolve_length; symmetry; eapply Forall2_len; eauto|].
  intros i src ly Hs Hl. rewrite resolve_nth in Hl.
  destruct (Forall2_nth_l _ _ _ _ _ H Hs) as (cv & Hc & C). rewrite Hc in Hl. injection Hl as <-.
  pose proof C as [CB CI CP CM CX CN CK CH CC CW].
  constructor; cbn.
  - destruct CB. constructor; assumption.
  - intros k. rewrite CP. destruct (sl_parent (base_of src)) as [p|].
    + rewrite idmap_last, (last_id_src _ _ _ _ _ H). split; [eauto|]. now intros (? & [= <-] & ?).
    + split; [discriminate|]. now intros (? & ? & _).
  - intros mode k. rewrite CM, CX, CN. unfold matte_for. change (matte_index src) with (matte_target src).
    destruct (vl_tt (visual_of src)) as [t|].
    2:{ split; [discriminate|]. now intros (? & ? & _). }
    assert (X : (match matte_target src with
                 | Some e => idmap_get e (build_idmap 0 conv []) | None => matte_state 0 None conv i end) = Some k <->
                match matte_target src with Some id => last_with_id srcs id k | None => nearest_matte srcs i k end).
    { destruct (matte_target src) as [id|].
      - now rewrite idmap_last, (last_id_src _ _ _ _ _ H).
      - rewrite matte_state_nearest; [apply (nearest_src _ _ _ _ _ H)|].
        apply Nat.lt_le_incl, nth_error_Some. congruence. }
    destruct (match matte_target src with Some e => _ | None => _ end) as [k'|].
    + split.
      * intros [= <- <-]. exists t. split; [reflexivity|]. split; [reflexivity|]. now apply X.
      * intros (t' & [= <-] & -> & Hm). apply X in Hm. congruence.
    + split; [discriminate|]. intros (t' & _ & _ & Hm). apply X in Hm. discriminate.
  - exact CK.
  - exact CH.
  - exact CC.
  - exact CW.
Qed.
Lemma process_layers_spec E srcs : spec (process_layers E srcs) (forall l, In l srcs -> layer_supported l) (fun _ => True).
Proof.
  unfold process_layers. eapply spec_bind_ok.
  - apply spec_mapM with (S := layer_supported). intros x _. apply conv_layer_spec.
  - intros conv _ _. now apply spec_ret.
Qed.

(** * Assets *)

Definition lookup (m : list (string * list layer)) (name : string) : option (list layer) :=
  match find (fun p => String.eqb (fst p) name) m with Some (_, l) => Some l | None => None end.
Lemma find_filter_other (m : list (string * list layer)) k name : k <> name ->
  find (fun p => String.eqb (fst p) name) (filter (fun p => negb (String.eqb (fst p) k)) m) =
  find (fun p => String.eqb (fst p) name) m.
Proof.
  intros N. induction m as [|[a v] m IH]; [reflexivity|]. cbn.
  destruct (String.eqb_spec a k) as [->|Na]; cbn.
  - rewrite IH. destruct (String.eqb_spec k name); [contradiction|reflexivity].
  - now rewrite IH.
Qed.
Lemma lookup_insert k v m name :
  lookup (asset_insert k v m) name = if String.eqb k name then Some v else lookup m name.
Proof.
  unfold lookup, asset_insert. cbn. destruct (String.eqb_spec k name) as [->|N]; [reflexivity|].
  now rewrite find_filter_other.
Qed.
Lemma conv_assets_lookup E : forall l m m', conv_assets E l m = Ok m' -> forall name,
  match asset_layers l name with
  | Some srcs => exists lys, lookup m' name = Some lys /\ process_layers E srcs = Ok lys
  | None => lookup m' name = lookup m name
  end.
Proof.
  induction l as [|x l IH]; intros m m' H name; cbn in *.
  - now injection H as ->.
  - destruct x as [fa sl w h t|a layers fr xt]; [discriminate|].
    destruct (process_layers E layers) as [lys| |] eqn:P; cbn in H; try discriminate.
    specialize (IH _ _ H name). destruct (asset_layers l name) as [srcs|]; [exact IH|].
    rewrite lookup_insert in IH. destruct (String.eqb (ass_id a) name); [eauto|exact IH].
Qed.
Lemma unwrap_assets a : unwrap_or (ani_assets a) [] = assets_of a.
Proof. reflexivity. Qed.
Lemma conv_animation_ok E a c : conv_animation E a = Ok c ->
  exists m, conv_assets E (assets_of a) [] = Ok m /\ process_layers E (ani_layers a) = Ok (co_layers c) /\
    c = mkComp (ani_ip a) (ani_op a) (ani_fr a) (ani_w a) (ani_h a) m (co_layers c).
Proof.
  unfold conv_animation. rewrite unwrap_assets.
  destruct (conv_assets E (assets_of a) []) as [m| |]; cbn; try discriminate.
  destruct (process_layers E (ani_layers a)) as [lys| |]; cbn; try discriminate.
  intros [= <-]. exists m. auto.
Qed.
Lemma conv_animation_scopes E a c : conv_animation E a = Ok c ->
  forall s, process_layers E (source_layers a s) = Ok (scope_layers c s).
Proof.
  intros H. apply conv_animation_ok in H. destruct H as (m & H1 & H2 & ->). intros [name|]; [|exact H2].
  cbn. unfold find_asset. cbn. pose proof (conv_assets_lookup E _ _ _ H1 name) as L.
  destruct (asset_layers (assets_of a) name) as [srcs|].
  - destruct L as (lys & L & P). unfold lookup in L.
    destruct (find _ m) as [[? ?]|]; [|discriminate]. injection L as ->. exact P.
  - unfold lookup in L. cbn in L. destruct (find _ m) as [[? ?]|]; [discriminate|reflexivity].
Qed.
Lemma conv_animation_reads E a c : conv_animation E a = Ok c -> forall s,
  List.length (scope_layers c s) = List.length (source_layers a s) /\
  forall i src ly, nth_error (source_layers a s) i = Some src -> nth_error (scope_layers c s) i = Some ly ->
    layer_reads E (source_layers a s) i src ly.
Proof. intros H s. apply process_layers_reads. now apply conv_animation_scopes. Qed.
Lemma scope_source E a c s i ly : conv_animation E a = Ok c -> nth_error (scope_layers c s) i = Some ly ->
  exists src, nth_error (source_layers a s) i = Some src /\ layer_reads E (source_layers a s) i src ly.
Proof.
  intros H Hl. destruct (conv_animation_reads E a c H s) as [L R].
  destruct (nth_error (source_layers a s) i) as [src|] eqn:S; [eauto|].
  apply nth_error_None in S. assert (i < List.length (scope_layers c s)) by (apply nth_error_Some; congruence). lia.
Qed.

Lemma conv_assets_spec E : forall l m, spec (conv_assets E l m) (forall x, In x l -> asset_supported x) (fun _ => True).
Proof.
  induction l as [|x l IH]; intros m; cbn [conv_assets].
  - split; [intros ? []|exact I].
  - destruct x as [fa sl w h t|a layers fr xt].
    + cbn. intros H. exact (H _ (or_introl eq_refl)).
    + eapply spec_iff; [|eapply spec_bind; [apply process_layers_spec|]; intros; apply IH].
      split; [intros [H1 H2] y [<-|Hy]; auto|]. intros H. split; [exact (H _ (or_introl eq_refl))|].
      intros y Hy. apply H. now right.
Qed.
Lemma conv_animation_spec E a : spec (conv_animation E a) (animation_supported a) (fun _ => True).
Proof.
  unfold conv_animation, animation_supported. rewrite unwrap_assets.
  eapply spec_bind; [apply conv_assets_spec|]. intros m _ _.
  eapply spec_bind_ok; [apply process_layers_spec|]. intros. now apply spec_ret.
Qed.

(** * Hiding a layer *)

Lemma setup_unhide E vl w h st : setup_layer E (unhide_visual vl) w h st = setup_layer E vl w h st.
Proof. reflexivity. Qed.
Lemma src_unhide_hidden l : is_layer_hidden (unhide l) = false.
Proof. destruct l; reflexivity. Qed.
Definition blank_cv (cv : converted) : converted :=
  mkConverted (blank (cv_layer cv)) (cv_id cv) (cv_matte cv) (cv_matte_ix cv).
Lemma blank_setup E vl w h st cv : setup_layer E vl w h st = Ok cv ->
  mkConverted (with_is_mask (cv_layer cv) false) (cv_id cv) (cv_matte cv) (cv_matte_ix cv) = blank_cv cv.
Proof.
  unfold setup_layer. destruct (conv_transform E (vl_ks vl)) as [[tr op]| |]; cbn; try discriminate.
  destruct (conv_blend_mode _); cbn; try discriminate.
  destruct (conv_masks _); cbn; try discriminate. intros [= <-]. reflexivity.
Qed.
Lemma conv_layer_hidden E l cv cv' : src_hidden l ->
  conv_layer E l = Ok cv -> conv_layer E (unhide l) = Ok cv' -> cv = blank_cv cv'.
Proof.
  intros H. apply hidden_iff in H. unfold conv_layer. rewrite H, src_unhide_hidden.
  destruct l as [vl ref w h st tm|vl sw sh sc|vl shapes|vl|vl ref]; cbn [unhide];
    unfold setup_precomp_layer, setup_shape_layer, setup_layer_base; rewrite setup_unhide;
    cbn [vl_layer unhide_visual unhide_base sl_st].
  - destruct (setup_layer E vl w h st) as [c0| |] eqn:S; cbn [bind]; try discriminate.
    destruct (mapO conv_scalar tm); cbn [bind]; try discriminate.
    intros [= <-] [= <-]. rewrite (blank_setup _ _ _ _ _ _ S). reflexivity.
  - destruct (setup_layer E vl f0 f0 _) as [c0| |] eqn:S; cbn [bind]; try discriminate.
    intros [= <-] [= <-]. apply (blank_setup _ _ _ _ _ _ S).
  - destruct (setup_layer E vl f0 f0 _) as [c0| |] eqn:S; cbn [bind]; try discriminate.
    destruct (conv_shapes E shapes); cbn [bind]; try discriminate.
    intros [= <-] [= <-]. rewrite (blank_setup _ _ _ _ _ _ S). reflexivity.
  - destruct (setup_layer E vl f0 f0 _) as [c0| |] eqn:S; cbn [bind]; try discriminate.
    intros [= <-] [= <-]. apply (blank_setup _ _ _ _ _ _ S).
  - destruct (setup_layer E vl f0 f0 _) as [c0| |] eqn:S; cbn [bind]; try discriminate.
    intros [= <-] [= <-]. apply (blank_setup _ _ _ _ _ _ S).
Qed.
Lemma mapM_app {A B} (f : A -> res B) l1 l2 r : mapM f (l1 ++ l2) = Ok r ->
  exists r1 r2, mapM f l1 = Ok r1 /\ mapM f l2 = Ok r2 /\ r = r1 ++ r2.
Proof.
  revert r. induction l1 as [|a l1 IH]; intros r; cbn.
  - intros H. exists [], r. auto.
  - destruct (f a); cbn; try discriminate. destruct (mapM f (l1 ++ l2)) as [r'| |]; cbn; try discriminate.
    intros [= <-]. destruct (IH r' eq_refl) as (r1 & r2 & -> & -> & ->). cbn. exists (a0 :: r1), r2. auto.
Qed.
Lemma build_idmap_ids : forall l l' idx m, map cv_id l = map cv_id l' -> build_idmap idx l m = build_idmap idx l' m.
Proof.
  induction l as [|c l IH]; intros [|c' l'] idx m H; try discriminate; [reflexivity|].
  cbn in *. injection H as -> H. now apply IH.
Qed.
Lemma matte_state_prefix : forall l l1 l2 idx prev i, i <= List.length l ->
  matte_state idx prev (l ++ l1) i = matte_state idx prev (l ++ l2) i.
Proof.
  induction l as [|c l IH]; intros l1 l2 idx prev [|i] H; cbn in *; try lia; try reflexivity.
  - destruct l1, l2; reflexivity.
  - apply IH. lia.
Qed.
Lemma mapM_length {A B} (f : A -> res B) : forall l r, mapM f l = Ok r -> List.length r = List.length l.
Proof.
  induction l as [|a l IH]; cbn; intros r; [now intros [= <-]|].
  destruct (f a); cbn; try discriminate. destruct (mapM f l); cbn; try discriminate.
  intros [= <-]. cbn. now rewrite (IH _ eq_refl).
Qed.
Lemma process_hidden E pre src post lys lys' : src_hidden src ->
  process_layers E (pre ++ src :: post) = Ok lys ->
  process_layers E (pre ++ unhide src :: post) = Ok lys' ->
  (forall ly ly', nth_error lys (List.length pre) = Some ly -> nth_error lys' (List.length pre) = Some ly' ->
     ly = blank ly') /\
  (forall i ly ly', i <> List.length pre -> nth_error lys i = Some ly -> nth_error lys' i = Some ly' ->
     without_matte ly = without_matte ly').
Proof.
  intros Hh H H'. apply process_layers_ok in H, H'.
  destruct H as (conv & H & ->), H' as (conv' & H' & ->).
  apply mapM_app in H, H'. destruct H as (c1 & c2 & H1 & H2 & ->), H' as (c1' & c2' & H1' & H2' & ->).
  assert (c1' = c1) by congruence. subst c1'. cbn [mapM] in H2, H2'.
  destruct (conv_layer E src) as [cv| |] eqn:C; cbn in H2; try discriminate.
  destruct (conv_layer E (unhide src)) as [cv'| |] eqn:C'; cbn in H2'; try discriminate.
  destruct (mapM (conv_layer E) post) as [r| |]; cbn in *; try discriminate.
  injection H2 as <-. injection H2' as <-.
  pose proof (conv_layer_hidden E src cv cv' Hh C C') as ->.
  assert (L : List.length c1 = List.length pre) by now apply mapM_length in H1.
  assert (IM : build_idmap 0 (c1 ++ blank_cv cv' :: r) [] = build_idmap 0 (c1 ++ cv' :: r) []).
  { apply build_idmap_ids. rewrite !map_app. reflexivity. }
  rewrite IM. set (m := build_idmap _ _ _). rewrite <- L. split.
  - intros ly ly' Hl Hl'. rewrite resolve_nth in Hl, Hl'.
    rewrite nth_error_app2, Nat.sub_diag in Hl, Hl' by lia. cbn in Hl, Hl'.
    injection Hl as <-. injection Hl' as <-.
    rewrite (matte_state_prefix c1 (blank_cv cv' :: r) (cv' :: r)) by lia. reflexivity.
  - intros i ly ly' Ni Hl Hl'. rewrite resolve_nth in Hl, Hl'.
    assert (N : nth_error (c1 ++ blank_cv cv' :: r) i = nth_error (c1 ++ cv' :: r) i).
    { destruct (Nat.lt_ge_cases i (List.length c1)).
      - now rewrite !nth_error_app1.
      - rewrite !nth_error_app2 by lia. destruct (i - List.length c1) eqn:D; [lia|reflexivity]. }
    rewrite N in Hl. destruct (nth_error (c1 ++ cv' :: r) i); try discriminate.
    injection Hl as <-. injection Hl' as <-. reflexivity.
Qed.
