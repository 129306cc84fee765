(** Consequences of the characterisation of sink calls; transforms; erasure. *)
From Coq Require Import ZArith Bool List Arith String Lia Relations.
From Flocq Require Import Core BinarySingleNaN.
From Verif Require Import F64 Kurbo Value Animated Batch Render RenderSpec RenderFacts RenderFacts2.
Import ListNotations.

(** * Nesting depth *)
Lemma layer_draws_balanced E c set ly idx tf alpha frame es :
  layer_draws E c set ly idx tf alpha frame es -> forall s, consume_all s es = Some s.
Proof.
  intros (fuel & H1 & <-) s.
  destruct (trans_render_layer E fuel c set ly idx tf alpha frame renderer_new s) as (s' & A & B).
  simpl in *. now rewrite A, (B H1).
Qed.
Lemma concat_balanced ess : Forall (fun es => forall s, consume_all s es = Some s) ess ->
  forall s, consume_all s (List.concat ess) = Some s.
Proof.
  induction 1 as [|e ess H H' IH]; intros s; simpl; auto. now rewrite consume_all_app, H.
Qed.
Lemma layer_body_nested E c set ly idx ptf alpha0 frame es :
  active ly frame -> layer_draws E c set ly idx ptf alpha0 frame es ->
  exists body, es = EvBegin (ly_name ly) idx :: body ++ [EvEnd] /\ nested body.
Proof.
  intros Ha H. apply layer_draws_active in H as (matte & clips & inner & Hm & Hc & Hi & ->); auto.
  set (k := match ly_mask_layer ly with Some _ => 2 | None => 0 end).
  exists (matte ++ clips ++ inner ++ repeat EvPop (List.length (ly_masks ly) + k)).
  split; [now rewrite <- !app_assoc|]. apply consume_nested.
  assert (Em : forall s, consume_all s matte = Some (repeat true k ++ s)).
  { intros s. unfold matte_draws in Hm. unfold k. destruct (ly_mask_layer ly) as [[mode mi]|].
    - destruct Hm as (m & Hm & ->). simpl. rewrite consume_all_app.
      assert (consume_all (true :: s) m = Some (true :: s)) as ->; [|reflexivity].
      destruct (nth_error set mi).
      + eapply layer_draws_balanced; eauto.
      + subst m. reflexivity.
    - now subst. }
  assert (Ec : forall s, consume_all s clips = Some (repeat true (List.length (ly_masks ly)) ++ s)).
  { intros s. destruct Hc as (ps & H & ->). revert s. induction H as [|m p ms ps Hp H IH]; intros s; simpl; auto.
    rewrite IH. f_equal. clear. induction (List.length ms); simpl; congruence. }
  assert (Ei : forall s, consume_all s inner = Some s).
  { intros s. unfold content_draws in Hi. destruct (ly_content ly) as [|name remap|shapes].
    - now subst.
    - destruct (find_asset c name); [|now subst]. destruct Hi as (ess & H & ->).
      apply concat_balanced. clear - H. induction H; constructor; auto.
      eapply layer_draws_balanced; eauto.
    - destruct Hi as (b & ps & _ & _ & ->). clear. induction ps; simpl; auto. }
  rewrite consume_all_app, Em, consume_all_app, Ec, consume_all_app, Ei, app_assoc, <- repeat_app.
  clear. induction (List.length (ly_masks ly) + k); simpl; auto.
Qed.

Lemma top_groups_nested w : nested w -> forall d rest,
  top_groups (S d) (w ++ rest) = top_groups (S d) rest.
Proof.
  induction 1; intros d rest'.
  - reflexivity.
  - simpl. apply IHnested.
  - rewrite <- app_comm_cons, <- app_assoc. destruct o; simpl in H; try contradiction; simpl;
      rewrite IHnested1; simpl; apply IHnested2.
  - rewrite <- app_comm_cons, <- app_assoc. simpl. rewrite IHnested1. simpl. apply IHnested2.
Qed.
Lemma top_groups_layer n i w rest : nested w ->
  top_groups 0 (EvBegin n i :: w ++ EvEnd :: rest) = (n, i) :: top_groups 0 rest.
Proof. intros H. simpl. now rewrite (top_groups_nested w H). Qed.

Definition activeb (ly : layer) (frame : f64) : bool := in_window ly frame.
Lemma append_top_groups E c frame tf alpha r es :
  rn_mask r = [] -> append_draws E c frame tf alpha r es ->
  top_groups 0 es =
  map (fun p => (ly_name (snd p), fst p))
      (filter (fun p => negb (ly_is_mask (snd p)) && in_window (snd p) frame)
              (rev (enumerate (co_layers c)))).
Proof.
  intros Hr H. apply append_draws_iff in H as (ess & H & ->); auto. simpl.
  unfold visible in H. revert ess H. generalize (rev (enumerate (co_layers c))) as l.
  induction l as [|[i ly] l IH]; intros ess H; simpl in *.
  - inversion H. reflexivity.
  - destruct (ly_is_mask ly); simpl in *; [now apply IH|].
    inversion H as [|x e l0 ess' Hx Hl]; subst. simpl in *.
    destruct (in_window ly frame) eqn:Ew.
    + apply active_in_window in Ew. destruct (layer_body_nested _ _ _ _ _ _ _ _ _ Ew Hx) as (w & -> & Hw).
      cbn [List.concat].
      replace (((EvBegin (ly_name ly) i :: w ++ [EvEnd]) ++ List.concat ess') ++ [EvPop])
        with (EvBegin (ly_name ly) i :: w ++ EvEnd :: (List.concat ess' ++ [EvPop]))
        by (rewrite <- !app_comm_cons, <- !app_assoc; reflexivity).
      rewrite top_groups_layer by auto. cbn [map fst snd]. f_equal. now apply IH.
    + apply layer_draws_inactive in Hx.
      * subst e. simpl. now apply IH.
      * rewrite active_in_window. congruence.
Qed.

(** * Mattes and masks *)
Lemma layer_draws_matte E c set ly idx ptf alpha0 frame mode k es :
  active ly frame -> ly_mask_layer ly = Some (mode, k) ->
  (layer_draws E c set ly idx ptf alpha0 frame es <->
   exists m own,
     match nth_error set k with
     | Some mly => layer_draws E c set mly 0 ptf alpha0 frame m
     | None => m = []
     end /\
     layer_draws E c set (without_matte ly) idx ptf alpha0 frame
       (EvBegin (ly_name ly) idx :: own ++ [EvEnd]) /\
     es = EvBegin (ly_name ly) idx
          :: EvPushLayer (mkBlend MixNormal ComposeSrcOver) f32_one ptf (full_rect c) :: m
          ++ EvPushLayer mode f32_one ptf (full_rect c) :: own ++ [EvPop; EvPop; EvEnd]).
Proof.
  intros Ha Hmm.
  assert (Ha' : active (without_matte ly) frame) by exact Ha.
  rewrite layer_draws_active by exact Ha.
  setoid_rewrite (layer_draws_active E c set (without_matte ly) idx ptf alpha0 frame _ Ha').
  unfold matte_draws. rewrite Hmm. simpl ly_mask_layer. cbn iota.
  change (compute_transform E set (without_matte ly) ptf frame) with (compute_transform E set ly ptf frame).
  simpl ly_masks. simpl ly_opacity. simpl ly_name.
  assert (P : forall n, repeat EvPop (n + 2) ++ [EvEnd] = repeat EvPop (n + 0) ++ [EvPop; EvPop; EvEnd]).
  { intros n. rewrite Nat.add_0_r, repeat_app, <- app_assoc. reflexivity. }
  split.
  - intros (matte & clips & inner & (m & Hm & ->) & Hc & Hi & ->).
    exists m, (clips ++ inner ++ repeat EvPop (List.length (ly_masks ly) + 0)).
    split; [exact Hm|]. split.
    + exists [], clips, inner. split; [reflexivity|]. split; [exact Hc|]. split; [exact Hi|].
      now rewrite <- !app_assoc.
    + rewrite <- !app_comm_cons, <- !app_assoc. simpl. rewrite P. reflexivity.
  - intros (m & own & Hm & (matte & clips & inner & -> & Hc & Hi & E1) & ->).
    eexists _, clips, inner. split; [exists m; split; [exact Hm|reflexivity]|].
    split; [exact Hc|]. split; [exact Hi|].
    injection E1 as E1. rewrite P.
    assert (own = clips ++ inner ++ repeat EvPop (List.length (ly_masks ly) + 0)) as ->.
    { apply (app_inv_tail [EvEnd]). rewrite E1. now rewrite <- !app_assoc. }
    rewrite <- !app_comm_cons, <- !app_assoc. reflexivity.
Qed.

Lemma layer_draws_masks E c set ly idx ptf alpha0 frame es :
  active ly frame -> ly_mask_layer ly = None ->
  (layer_draws E c set ly idx ptf alpha0 frame es <->
   exists paths own,
     Forall2 (fun m p => geometry_eval E (mk_geometry m) frame = Ok p) (ly_masks ly) paths /\
     layer_draws E c set (without_masks ly) idx ptf alpha0 frame
       (EvBegin (ly_name ly) idx :: own ++ [EvEnd]) /\
     es = EvBegin (ly_name ly) idx
          :: map (fun p => EvPushClip (compute_transform E set ly ptf frame) (SkPath p)) paths
          ++ own ++ repeat EvPop (List.length (ly_masks ly)) ++ [EvEnd]).
Proof.
  intros Ha Hmm.
  assert (Ha' : active (without_masks ly) frame) by exact Ha.
  rewrite layer_draws_active by exact Ha.
  setoid_rewrite (layer_draws_active E c set (without_masks ly) idx ptf alpha0 frame _ Ha').
  unfold matte_draws, mask_clips. simpl ly_mask_layer. rewrite Hmm. cbn iota.
  change (compute_transform E set (without_masks ly) ptf frame) with (compute_transform E set ly ptf frame).
  simpl ly_masks. simpl ly_opacity. simpl ly_name.
  split.
  - intros (matte & clips & inner & -> & (paths & Hp & ->) & Hi & ->).
    exists paths, inner. split; [exact Hp|]. split.
    + exists [], [], inner. split; [reflexivity|]. split; [exists []; auto|]. split; [exact Hi|]. reflexivity.
    + simpl. rewrite Nat.add_0_r. reflexivity.
  - intros (paths & own & Hp & (matte & clips & inner & -> & (ps' & Hp' & ->) & Hi & E1) & ->).
    inversion Hp'; subst. injection E1 as E1. simpl in E1.
    assert (own = inner) as -> by (apply (app_inv_tail [EvEnd]); exact E1).
    eexists [], _, inner. split; [reflexivity|]. split; [exists paths; split; [exact Hp|reflexivity]|].
    split; [exact Hi|]. simpl. rewrite Nat.add_0_r. reflexivity.
Qed.

(** * Precomps *)
Lemma layer_draws_instance E c set ly idx ptf alpha0 frame name remap es :
  active ly frame -> ly_mask_layer ly = None -> ly_masks ly = [] ->
  ly_content ly = CInstance name remap ->
  (layer_draws E c set ly idx ptf alpha0 frame es <->
   exists ess,
     Forall2 (fun al e =>
        layer_draws E c (match find_asset c name with Some ls => ls | None => [] end) al 0
          (compute_transform E set ly ptf frame)
          (fdiv (fmul alpha0 (eval E (ly_opacity ly) frame)) f100)
          (fadd (fdiv frame (ly_stretch ly)) (fdiv (fneg (ly_start_frame ly)) (ly_stretch ly))) e)
       (filter (fun al => negb (ly_is_mask al))
               (rev (match find_asset c name with Some ls => ls | None => [] end))) ess /\
     es = EvBegin (ly_name ly) idx :: List.concat ess ++ [EvEnd]).
Proof.
  intros Ha Hmm Hms Hct. rewrite layer_draws_active by exact Ha.
  unfold matte_draws, mask_clips, content_draws. rewrite Hmm, Hms, Hct. simpl.
  split.
  - intros (matte & clips & inner & -> & (paths & Hp & ->) & Hi & ->). inversion Hp; subst. simpl.
    destruct (find_asset c name) as [ls|].
    + destruct Hi as (ess & H & ->). exists ess. auto.
    + subst inner. exists []. simpl. auto.
  - intros (ess & H & ->). exists [], [], (List.concat ess).
    split; [reflexivity|]. split; [exists []; auto|].
    destruct (find_asset c name) as [ls|].
    + split; [exists ess; auto|reflexivity].
    + inversion H; subst. auto.
Qed.

(** * Transforms *)
Lemma parent_chain_ancestors E set frame o ps : ancestors set o ps ->
  forall fuel tf, List.length ps <= fuel ->
  parent_chain E set frame fuel o tf = chain_product E frame ps tf.
Proof.
  induction 1; intros fuel tf Hl; simpl.
  - destruct fuel; reflexivity.
  - destruct fuel; simpl; auto. now rewrite H.
  - simpl in Hl. destruct fuel; [lia|]. simpl. rewrite H. apply IHancestors. lia.
Qed.

Inductive anc_ix (set : list layer) : option nat -> list nat -> Prop :=
| ai_none : anc_ix set None []
| ai_missing : forall i, nth_error set i = None -> anc_ix set (Some i) []
| ai_step : forall i p is, nth_error set i = Some p -> anc_ix set (ly_parent p) is ->
    anc_ix set (Some i) (i :: is).
Lemma anc_ix_fun set o is is' : anc_ix set o is -> anc_ix set o is' -> is = is'.
Proof.
  intros H. revert is'. induction H; intros is' H'; inversion H'; subst; try congruence.
  assert (p0 = p) as -> by congruence. f_equal. auto.
Qed.
Lemma anc_ix_of set o ps : ancestors set o ps -> exists is, anc_ix set o is /\ List.length is = List.length ps.
Proof.
  induction 1.
  - exists []. split; auto. constructor.
  - exists []. split; auto. now constructor.
  - destruct IHancestors as (is & A & B). exists (i :: is). split; [econstructor; eauto|]. simpl. congruence.
Qed.
Lemma anc_ix_in set o is : anc_ix set o is -> forall j, In j is ->
  exists is', anc_ix set (Some j) is' /\ List.length is' <= List.length is.
Proof.
  induction 1; intros j Hj; simpl in *; try tauto.
  destruct Hj as [<-|Hj].
  - exists (i :: is). split; [econstructor; eauto|]. auto.
  - destruct (IHanc_ix j Hj) as (is' & A & B). exists is'. split; auto.
Qed.
Lemma anc_ix_nodup set o is : anc_ix set o is -> NoDup is.
Proof.
  induction 1; constructor; auto. intros Hin.
  destruct (anc_ix_in _ _ _ H0 i Hin) as (is' & A & B).
  assert (anc_ix set (Some i) (i :: is)) by (econstructor; eauto).
  pose proof (anc_ix_fun _ _ _ _ A H1). subst is'. simpl in B. lia.
Qed.
Lemma anc_ix_incl set o is : anc_ix set o is -> incl is (seq 0 (List.length set)).
Proof.
  induction 1; intros x Hx; simpl in *; try tauto. destruct Hx as [<-|Hx]; [|auto].
  apply in_seq. assert (i < List.length set) by (apply nth_error_Some; congruence). lia.
Qed.
Lemma ancestors_bound set o ps : ancestors set o ps -> List.length ps <= List.length set.
Proof.
  intros H. destruct (anc_ix_of _ _ _ H) as (is & A & <-).
  rewrite <- (seq_length (List.length set) 0).
  apply NoDup_incl_length; [eapply anc_ix_nodup; eauto|eapply anc_ix_incl; eauto].
Qed.
Lemma compute_transform_chain E set ly global frame ps :
  ancestors set (ly_parent ly) ps ->
  compute_transform E set ly global frame =
  affine_mul global (chain_product E frame ps (transform_eval E (ly_transform ly) frame)).
Proof.
  intros H. unfold compute_transform. f_equal. apply parent_chain_ancestors; auto.
  eapply ancestors_bound; eauto.
Qed.
Lemma ancestors_fun set o ps ps' : ancestors set o ps -> ancestors set o ps' -> ps = ps'.
Proof.
  intros H. revert ps'. induction H; intros ps' H'; inversion H'; subst; try congruence.
  assert (p0 = p) as -> by congruence. f_equal. auto.
Qed.

Lemma parent_chain_upto E set frame fuel : forall o tf, exists ps,
  ancestors_upto set o ps /\ List.length ps <= fuel /\
  parent_chain E set frame fuel o tf = chain_product E frame ps tf.
Proof.
  induction fuel as [|fuel IH]; intros o tf.
  - exists []. split; [constructor|]. destruct o; simpl; auto.
  - destruct o as [i|]; simpl.
    + destruct (nth_error set i) as [p|] eqn:En.
      * destruct (IH (ly_parent p) (affine_mul (transform_eval E (ly_transform p) frame) tf)) as (ps & A & B & C).
        exists (p :: ps). split; [econstructor; eauto|]. simpl. split; [lia|exact C].
      * exists []. simpl. split; [constructor|]. split; [lia|reflexivity].
    + exists []. simpl. split; [constructor|]. split; [lia|reflexivity].
Qed.

(** Chains without a cycle end. *)
Inductive upto_ix (set : list layer) : option nat -> list nat -> Prop :=
| ui_stop : forall o, upto_ix set o []
| ui_step : forall i p is, nth_error set i = Some p -> upto_ix set (ly_parent p) is ->
    upto_ix set (Some i) (i :: is).
Lemma chain_ends_or_long set n : forall o,
  (exists ps, ancestors set o ps) \/ (exists is, upto_ix set o is /\ List.length is = n).
Proof.
  induction n as [|n IH]; intros o.
  - right. exists []. split; auto. constructor.
  - destruct o as [i|]; [|left; exists []; constructor].
    destruct (nth_error set i) as [p|] eqn:En.
    + destruct (IH (ly_parent p)) as [(ps & H)|(is & H & L)].
      * left. exists (p :: ps). econstructor; eauto.
      * right. exists (i :: is). split; [econstructor; eauto|]. simpl. congruence.
    + left. exists []. now constructor.
Qed.
Lemma upto_ix_reach set o is : upto_ix set o is -> forall i j is', o = Some i -> is = i :: is' ->
  In j is' -> clos_trans nat (parent_link set) i j.
Proof.
  induction 1; intros i' j is' Ho Hi Hj; [discriminate|].
  injection Ho as <-. injection Hi as <-.
  inversion H0; subst; [contradiction|].
  assert (parent_link set i i0) by (exists p; auto).
  destruct Hj as [<-|Hj]; [now apply t_step|].
  eapply t_trans; [apply t_step; eauto|]. eapply IHupto_ix; eauto.
Qed.
Lemma upto_ix_nodup set : (forall i, ~ clos_trans nat (parent_link set) i i) ->
  forall o is, upto_ix set o is -> NoDup is /\ incl is (seq 0 (List.length set)).
Proof.
  intros Ha. induction 1 as [|i p is Hp Hu [IH1 IH2]].
  - split; [constructor|intros x []].
  - split.
    + constructor; auto. intros Hin. apply (Ha i).
      eapply (upto_ix_reach set (Some i) (i :: is)); eauto. econstructor; eauto.
    + intros x [<-|Hx]; [|auto]. apply in_seq.
      assert (i < List.length set) by (apply nth_error_Some; congruence). lia.
Qed.
Lemma acyclic_ancestors set : (forall i, ~ clos_trans nat (parent_link set) i i) ->
  forall o, exists ps, ancestors set o ps.
Proof.
  intros Ha o. destruct (chain_ends_or_long set (S (List.length set)) o) as [H|(is & H & L)]; auto.
  destruct (upto_ix_nodup set Ha o is H) as [A B].
  pose proof (NoDup_incl_length A B) as C. rewrite seq_length in C. lia.
Qed.

(** * Erasure *)
Definition same {A} (m m' : M A) : Prop := forall r, m r = m' r.
Lemma same_bind {A B} (m m' : M A) (k k' : A -> M B) :
  same m m' -> (forall a, same (k a) (k' a)) -> same (mbind m k) (mbind m' k').
Proof.
  intros H1 H2 r. unfold mbind. rewrite H1. destruct (r_out (m' r)); auto. now rewrite H2.
Qed.
Lemma same_refl {A} (m : M A) : same m m.
Proof. intros r. reflexivity. Qed.
Lemma same_forM_map {A} (g : A -> A) l (f f' : A -> M unit) :
  (forall x, same (f x) (f' (g x))) -> same (forM l f) (forM (map g l) f').
Proof.
  intros H. induction l; simpl; [apply same_refl|]. apply same_bind; auto.
Qed.
Lemma find_asset_erase c name :
  find_asset (erase_comp c) name = option_map (map erase_layer) (find_asset c name).
Proof.
  unfold find_asset, erase_comp. simpl. induction (co_assets c) as [|[k l] a IH]; simpl; auto.
  destruct (String.eqb k name); simpl; auto.
Qed.
Lemma parent_chain_erase E set frame fuel : forall o tf,
  parent_chain E (map erase_layer set) frame fuel o tf = parent_chain E set frame fuel o tf.
Proof.
  induction fuel; intros o tf; destruct o as [i|]; simpl; auto.
  rewrite nth_error_map. destruct (nth_error set i); simpl; auto.
Qed.
Lemma same_render_layer E fuel : forall c set ly idx tf alpha frame,
  same (render_layer E fuel c set ly idx tf alpha frame)
       (render_layer E fuel (erase_comp c) (map erase_layer set) (erase_layer ly) idx tf alpha frame).
Proof.
  induction fuel as [|fuel IH]; intros; [apply same_refl|].
  cbn [render_layer].
  change (in_window (erase_layer ly) frame) with (in_window ly frame).
  destruct (negb (in_window ly frame)); [apply same_refl|].
  assert (Ht : compute_transform E (map erase_layer set) (erase_layer ly) tf frame =
               compute_transform E set ly tf frame).
  { unfold compute_transform. rewrite map_length, parent_chain_erase. reflexivity. }
  rewrite Ht.
  apply same_bind; [apply same_refl|intros _].
  apply same_bind.
  { change (ly_mask_layer (erase_layer ly)) with (ly_mask_layer ly).
    destruct (ly_mask_layer ly) as [[mode mi]|]; [|apply same_refl].
    apply same_bind; [apply same_refl|intros _]. apply same_bind; [|intros _; apply same_refl].
    rewrite nth_error_map. destruct (nth_error set mi); simpl; [apply IH|apply same_refl]. }
  intros _. apply same_bind.
  { simpl ly_masks. apply (same_forM_map erase_mask). intros x. apply same_refl. }
  intros _. apply same_bind.
  { simpl ly_content. simpl ly_opacity. simpl ly_stretch. simpl ly_start_frame.
    destruct (ly_content ly) as [|name remap|shapes]; simpl erase_content; cbn iota; try apply same_refl.
    rewrite find_asset_erase. destruct (find_asset c name) as [ls|]; simpl; [|apply same_refl].
    rewrite <- map_rev. apply same_forM_map. intros x. simpl.
    destruct (ly_is_mask x); [apply same_refl|apply IH]. }
  intros _. simpl ly_masks. simpl ly_mask_layer. rewrite map_length. apply same_refl.
Qed.
Lemma enumerate_map {A B} (f : A -> B) l :
  enumerate (map f l) = map (fun p => (fst p, f (snd p))) (enumerate l).
Proof.
  unfold enumerate. rewrite map_length. generalize 0 as a.
  induction l as [|x l IH]; intros a; simpl; auto. f_equal. apply IH.
Qed.
Lemma append_erase E fuel c frame tf alpha r :
  append E fuel (erase_comp c) frame tf alpha r = append E fuel c frame tf alpha r.
Proof.
  rewrite !append_unfold. symmetry. apply same_bind; [apply same_refl|intros _].
  apply same_bind; [|intros _; apply same_refl].
  unfold append_body. simpl co_layers. rewrite enumerate_map, <- map_rev.
  generalize (rev (enumerate (co_layers c))) as l.
  induction l as [|[i ly] l IHl]; simpl; [apply same_refl|].
  apply same_bind; [|auto]. destruct (ly_is_mask ly); [apply same_refl|apply same_render_layer].
Qed.
