(** C11: exactly when a frame is finished, and how deep the drawing recurses. *)
From Coq Require Import ZArith Bool List Arith Lia String.
From Verif Require Import F64 Kurbo Value Animated Batch Render RenderSpec BatchSpec FrameSpec RenderFacts RenderFacts2 BatchFacts BatchFacts2 PropRender PropBatch Schema Import PropImport Examples.
Import ListNotations.
Close Scope string_scope.
Open Scope list_scope.
Open Scope nat_scope.

(** ** Specification *)
(** A layer of a list of layers at a time. *)
Definition place : Type := list layer * layer * f64.
(** To show a layer that is active its matte has to be drawn, and the layers of
    the precomposition it shows, at their time, unless they are mattes. *)
Inductive needs (c : composition) : place -> place -> Prop :=
| nd_matte : forall set ly frame mode k m, active ly frame -> ly_mask_layer ly = Some (mode, k) -> nth_error set k = Some m ->
    needs c (set, ly, frame) (set, m, frame)
| nd_inside : forall set ly frame name remap ls inner, active ly frame -> ly_content ly = CInstance name remap -> find_asset c name = Some ls ->
    In inner ls -> ly_is_mask inner = false -> needs c (set, ly, frame) (ls, inner, inner_time ly frame).
(** [chain c n p]: from [p], [n] times on to a layer that is needed. *)
Inductive chain (c : composition) : nat -> place -> Prop :=
| ch_none : forall p, chain c 0 p
| ch_more : forall n p q, needs c p q -> chain c n q -> chain c (S n) p.
(** Some layer of the composition that is not a matte leads on [n] times. *)
Definition drawn_chain (c : composition) (frame : f64) (n : nat) : Prop :=
  exists ly, In ly (co_layers c) /\ ly_is_mask ly = false /\ chain c n (co_layers c, ly, frame).

(** ** Depth *)
Definition oofs (m : M unit) : Prop := r_out (m renderer_new) = Oof.
Lemma oofs_bind m1 m2 : np m1 -> oofs (m1 ;; m2) <-> oofs m1 \/ oofs m2.
Proof.
  intros [G N]. unfold oofs, mbind. destruct (r_out (m1 renderer_new)) as [[]| |] eqn:Eq; cbn [r_out].
  - rewrite (good_st m1 G Eq). split; [auto|]. intros [H|H]; [discriminate|exact H].
  - congruence.
  - tauto.
Qed.
Lemma oofs_ret : ~ oofs (ret tt). Proof. discriminate. Qed.
Lemma oofs_emit e : ~ oofs (emit e). Proof. discriminate. Qed.
Lemma oofs_emits e : ~ oofs (emits e). Proof. discriminate. Qed.
Lemma oofs_forM {A} (l : list A) f : (forall x, In x l -> np (f x)) -> oofs (forM l f) <-> exists x, In x l /\ oofs (f x).
Proof.
  induction l as [|x l IH]; intros H; cbn [forM].
  - split; [intros O; now apply oofs_ret in O|intros (x & [] & _)].
  - rewrite oofs_bind by (apply H; now left). rewrite IH by (intros; apply H; now right). split.
    + intros [O|(y & I & O)]; [exists x|exists y]; cbn; auto.
    + intros (y & [<-|I] & O); [auto|right; eauto].
Qed.
Lemma masks_np E ms tf frame : Forall (fun m => forall frame, geometry_eval E (mk_geometry m) frame <> Panic) ms -> np (forM ms (render_mask E tf frame)).
Proof.
  intros H. apply np_forM. intros m I. split; [apply good_mask_clip|]. unfold render_mask. rewrite Forall_forall in H. specialize (H m I frame).
  destruct (geometry_eval E (mk_geometry m) frame); cbn; congruence.
Qed.
Lemma masks_done E ms tf frame : Forall (fun m => forall frame, geometry_eval E (mk_geometry m) frame <> Panic) ms -> ~ oofs (forM ms (render_mask E tf frame)).
Proof.
  intros H O. rewrite oofs_forM in O.
  - destruct O as (m & I & O). unfold oofs, render_mask in O. pose proof (geometry_eval_oof E (mk_geometry m) frame) as N. destruct (geometry_eval E (mk_geometry m) frame); cbn in O; congruence.
  - intros m I. split; [apply good_mask_clip|]. unfold render_mask. rewrite Forall_forall in H. specialize (H m I frame).
    destruct (geometry_eval E (mk_geometry m) frame); cbn; congruence.
Qed.
Lemma shapes_done E shs tf alpha frame : Forall (all_geometry (sound_geometry E)) shs -> ~ oofs (render_content_shapes E shs tf alpha frame).
Proof.
  intros Hs. unfold oofs, render_content_shapes. destruct (render_shapes_inv E shs tf alpha frame Hs) as (b & H1 & I1).
  cbn [rn_batch renderer_new]. rewrite H1, (batch_render_eq E 0 0 b I1). discriminate.
Qed.
Lemma asset_sound E c name ls : sound_comp E c -> find_asset c name = Some ls -> Forall (sound_layer E) ls.
Proof.
  intros [_ Ha] Ef. unfold find_asset in Ef. destruct (find _ (co_assets c)) as [[k l']|] eqn:E2; [|discriminate]. injection Ef as ->.
  apply find_some in E2 as [Hin _]. rewrite Forall_forall in Ha. apply (Ha _ Hin).
Qed.
Lemma layer_depth E c : sound_comp E c -> forall fuel set ly idx tf alpha frame, Forall (sound_layer E) set -> sound_layer E ly ->
  oofs (render_layer E fuel c set ly idx tf alpha frame) <-> chain c fuel (set, ly, frame).
Proof.
  intros Hc. induction fuel as [|fuel IH]; intros set ly idx tf alpha frame Hset Hly.
  { split; [intros _; constructor|reflexivity]. }
  pose proof (np_render_layer E fuel c Hc) as NP. pose proof Hly as [Hm Hs]. cbn [render_layer].
  destruct (in_window ly frame) eqn:W; cbn [negb].
  2:{ split; [intros O; now apply oofs_ret in O|]. inversion 1 as [|? ? q Nd _]; subst. assert (A : active ly frame) by (inversion Nd; assumption). apply active_in_window in A. congruence. }
  assert (A : active ly frame) by now apply active_in_window.
  set (matte := match ly_mask_layer ly with Some _ => _ | None => _ end). set (content := match ly_content ly with CNone => _ | _ => _ end).
  assert (Mt : np matte /\ (oofs matte <-> exists mode k m, ly_mask_layer ly = Some (mode, k) /\ nth_error set k = Some m /\ chain c fuel (set, m, frame))).
  { unfold matte. destruct (ly_mask_layer ly) as [[mode mi]|].
    - assert (X : forall m, nth_error set mi = Some m -> sound_layer E m) by (intros m En; rewrite Forall_forall in Hset; apply Hset; eapply nth_error_In; eauto).
      assert (Nm : np (match nth_error set mi with Some m => render_layer E fuel c set m 0 tf alpha frame | None => ret tt end)).
      { destruct (nth_error set mi) as [m|] eqn:En; [apply NP; auto|apply np_ret]. }
      split; [apply np_bind; [apply np_emit|apply np_bind; [exact Nm|apply np_emit]]|].
      rewrite oofs_bind by apply np_emit. rewrite oofs_bind by exact Nm. split.
      + intros [O|[O|O]]; [now apply oofs_emit in O| |now apply oofs_emit in O]. destruct (nth_error set mi) as [m|] eqn:En; [|now apply oofs_ret in O].
        exists mode, mi, m. split; [reflexivity|]. split; [exact En|]. apply (IH set m 0 tf alpha frame); auto.
      + intros (mode' & k & m & Eq & En & Ch). injection Eq as <- <-. right. left. rewrite En. apply IH; auto.
    - split; [apply np_ret|]. split; [intros O; now apply oofs_ret in O|intros (mode & k & m & Eq & _); discriminate]. }
  assert (Ct : np content /\ (oofs content <-> exists name remap ls inner, ly_content ly = CInstance name remap /\ find_asset c name = Some ls /\ In inner ls /\ ly_is_mask inner = false /\
    chain c fuel (ls, inner, inner_time ly frame))).
  { unfold content. destruct (ly_content ly) as [|name remap|shs].
    - split; [apply np_ret|]. split; [intros O; now apply oofs_ret in O|intros (n & rm & ls & i & Eq & _); discriminate].
    - destruct (find_asset c name) as [ls|] eqn:Ef.
      + pose proof (asset_sound E c name ls Hc Ef) as Hls.
        assert (Nl : forall al, In al (rev ls) -> np (if ly_is_mask al then ret tt else render_layer E fuel c ls al 0 (compute_transform E set ly tf frame) (fdiv (fmul alpha (eval E (ly_opacity ly) frame)) f100) (inner_time ly frame))).
        { intros al Ia. destruct (ly_is_mask al); [apply np_ret|]. apply NP; auto. rewrite Forall_forall in Hls. apply Hls. now apply in_rev. }
        split; [now apply np_forM|]. etransitivity; [apply oofs_forM; exact Nl|]. split.
        * intros (al & Ia & O). destruct (ly_is_mask al) eqn:Mk; [now apply oofs_ret in O|]. apply in_rev in Ia. exists name, remap, ls, al.
          split; [reflexivity|]. split; [exact Ef|]. split; [exact Ia|]. split; [exact Mk|]. apply IH in O; auto. rewrite Forall_forall in Hls. auto.
        * intros (n & rm & ls' & al & Eq & Ef' & Ia & Mk & Ch). injection Eq as <- <-. assert (ls' = ls) as -> by congruence.
          exists al. split; [now apply -> in_rev|]. rewrite Mk. apply IH; auto. rewrite Forall_forall in Hls. auto.
      + split; [apply np_ret|]. split; [intros O; now apply oofs_ret in O|intros (n & rm & ls & i & Eq & Ef' & _)]. injection Eq as <- <-. congruence.
    - split; [|split; [intros O; now apply shapes_done in O|intros (n & rm & ls & i & Eq & _); discriminate]].
      split; [apply good_content|]. unfold render_content_shapes. destruct (render_shapes_inv E shs (compute_transform E set ly tf frame) (fdiv (fmul alpha (eval E (ly_opacity ly) frame)) f100) frame Hs) as (b & H1 & I1).
      cbn [rn_batch renderer_new]. rewrite H1, (batch_render_eq E 0 0 b I1). discriminate. }
  destruct Mt as [Nm Om], Ct as [Nc Oc]. clearbody matte content.
  rewrite oofs_bind by apply np_emit. rewrite oofs_bind by exact Nm. rewrite oofs_bind by now apply masks_np. rewrite oofs_bind by exact Nc. rewrite oofs_bind by apply np_emits.
  rewrite Om, Oc. split.
  - intros [O|[(mode & k & m & Eq & En & Ch)|[O|[(n & rm & ls & i & Eq & Ef & Ii & Mk & Ch)|[O|O]]]]].
    + now apply oofs_emit in O.
    + eapply ch_more; [|exact Ch]. eapply nd_matte; eauto.
    + now apply masks_done in O.
    + eapply ch_more; [|exact Ch]. eapply nd_inside; eauto.
    + now apply oofs_emits in O.
    + now apply oofs_emit in O.
  - inversion 1 as [|? ? q Nd Ch]; subst. inversion Nd; subst.
    + right. left. eauto 6.
    + right. right. right. left. do 4 eexists. eauto 6.
Qed.
Lemma enumerate_nth {A} (l : list A) : forall n0 i x, nth_error l i = Some x -> nth_error (combine (seq n0 (List.length l)) l) i = Some (n0 + i, x).
Proof. induction l as [|y l IH]; intros n0 [|i] x H; try discriminate; cbn in *; [rewrite Nat.add_0_r; congruence|]. rewrite (IH (S n0) i x H). do 2 f_equal. lia. Qed.
(** ** C11 *)
(** Drawing a frame wants to recurse more than [n] layers deep exactly if some
    layer leads on [n] times. *)
Theorem C11_depth : forall E c frame tf alpha r n, sound_comp E c -> used r ->
  r_out (append E n c frame tf alpha r) = Oof <-> drawn_chain c frame n.
Proof.
  intros E c frame tf alpha r n Hc U. rewrite (used_clean r U). pose proof Hc as [Hl _].
  set (f := fun '(i, ly) => if ly_is_mask ly then ret tt else render_layer E n c (co_layers c) ly i tf alpha frame).
  assert (Nf : forall x, In x (rev (enumerate (co_layers c))) -> np (f x)).
  { intros [i ly] I. apply in_rev in I. apply in_combine_r in I. cbn. destruct (ly_is_mask ly); [apply np_ret|]. apply np_render_layer; auto. rewrite Forall_forall in Hl. auto. }
  change (append E n c frame tf alpha renderer_new) with ((emit (EvPushClip tf (full_rect c)) ;; forM (rev (enumerate (co_layers c))) f ;; emit EvPop) renderer_new).
  change (r_out ((emit (EvPushClip tf (full_rect c)) ;; forM (rev (enumerate (co_layers c))) f ;; emit EvPop) renderer_new) = Oof) with (oofs (emit (EvPushClip tf (full_rect c)) ;; forM (rev (enumerate (co_layers c))) f ;; emit EvPop)).
  rewrite oofs_bind by apply np_emit. rewrite oofs_bind by now apply np_forM. rewrite oofs_forM by exact Nf. unfold drawn_chain. split.
  - intros [O|[([i ly] & I & O)|O]]; [now apply oofs_emit in O| |now apply oofs_emit in O]. apply in_rev in I. apply in_combine_r in I. cbn in O.
    destruct (ly_is_mask ly) eqn:Mk; [now apply oofs_ret in O|]. exists ly. split; [exact I|]. split; [exact Mk|]. apply layer_depth in O; auto. rewrite Forall_forall in Hl. auto.
  - intros (ly & I & Mk & Ch). right. left. apply In_nth_error in I as [i Hi]. exists (i, ly). split.
    + apply -> in_rev. apply (nth_error_In _ i). apply (enumerate_nth _ 0 i _ Hi).
    + cbn. rewrite Mk. apply layer_depth; auto. rewrite Forall_forall in Hl. apply Hl. eapply nth_error_In; eauto.
Qed.
(** So a frame is finished if and only if the chains it has to draw do not get
    longer and longer. *)
Theorem C11_exact : forall E c frame tf alpha r, sound_comp E c -> used r ->
  (exists n, r_out (append E n c frame tf alpha r) = Ok tt) <-> (exists n, ~ drawn_chain c frame n).
Proof.
  intros E c frame tf alpha r Hc U. split; intros [n H]; exists n.
  - intros D. apply (C11_depth E c frame tf alpha r n Hc U) in D. congruence.
  - pose proof (C13_no_panic E n c frame tf alpha r U Hc) as P.
    destruct (r_out (append E n c frame tf alpha r)) as [[]| |] eqn:Eq; [reflexivity|congruence|]. exfalso. apply H.
    now apply (C11_depth E c frame tf alpha r n Hc U).
Qed.
(** There is no depth that is enough for all compositions, even without any
    layer depending on itself: a chain of mattes may be as long as the list of
    layers. *)
Definition ladder (n : nat) : composition :=
  mkComp f0 (f_of_Z 10) (f_of_Z 30) 100 50 []
    (map (fun i => mk_layer "l"%string None [] (negb (Nat.eqb i 0)) (Some (blend_of_compose ComposeSrcIn, S i)) CNone) (seq 0 (S n))).
Lemma ladder_nth n i : i <= n -> nth_error (co_layers (ladder n)) i = Some (mk_layer "l"%string None [] (negb (Nat.eqb i 0)) (Some (blend_of_compose ComposeSrcIn, S i)) CNone).
Proof. intros H. unfold ladder. cbn [co_layers]. rewrite nth_error_map. rewrite (nth_error_nth' _ 0) by (rewrite seq_length; lia). rewrite seq_nth by lia. reflexivity. Qed.
Theorem C11_deep : forall E n, exists c, sound_comp E c /\
  (forall frame tf alpha, active (nth 0 (co_layers c) layer_default) frame -> r_out (append E n c frame tf alpha renderer_new) = Oof) /\
  (forall frame tf alpha, r_out (append E (S n) c frame tf alpha renderer_new) = Ok tt).
Proof.
  intros E n. exists (ladder n).
  assert (Sc : sound_comp E (ladder n)).
  { split; [|constructor]. apply Forall_forall. intros ly I. unfold ladder in I. cbn [co_layers] in I. apply in_map_iff in I as (i & <- & _). split; [constructor|exact Logic.I]. }
  split; [exact Sc|]. split.
  - intros frame tf alpha A. apply C11_depth; [exact Sc|constructor|]. eexists. split; [apply (nth_error_In _ 0), ladder_nth; lia|]. split; [reflexivity|].
    assert (X : forall k i, i + k = n -> chain (ladder n) k (co_layers (ladder n), mk_layer "l"%string None [] (negb (Nat.eqb i 0)) (Some (blend_of_compose ComposeSrcIn, S i)) CNone, frame)).
    { induction k as [|k IH]; intros i Hi; [constructor|]. eapply ch_more; [|apply (IH (S i)); lia]. eapply nd_matte; [exact A|reflexivity|]. apply ladder_nth. lia. }
    apply (X n 0). reflexivity.
  - intros frame tf alpha. pose proof (C13_no_panic E (S n) (ladder n) frame tf alpha renderer_new used_new Sc) as P.
    destruct (r_out (append E (S n) (ladder n) frame tf alpha renderer_new)) as [[]| |] eqn:Eq; [reflexivity|congruence|]. exfalso.
    apply C11_depth in Eq; [|exact Sc|constructor]. destruct Eq as (ly & I & Mk & Ch).
    assert (X : forall k i ly, nth_error (co_layers (ladder n)) i = Some ly -> chain (ladder n) k (co_layers (ladder n), ly, frame) -> i + k <= n).
    { induction k as [|k IH]; intros i l Hi C.
      - assert (i < List.length (co_layers (ladder n))) by (apply nth_error_Some; congruence). unfold ladder in *. cbn [co_layers] in *. rewrite map_length, seq_length in *. lia.
      - assert (i <= n) by (assert (i < List.length (co_layers (ladder n))) by (apply nth_error_Some; congruence); unfold ladder in *; cbn [co_layers] in *; rewrite map_length, seq_length in *; lia).
        rewrite ladder_nth in Hi by lia. assert (l = mk_layer "l"%string None [] (negb (Nat.eqb i 0)) (Some (blend_of_compose ComposeSrcIn, S i)) CNone) as -> by congruence. clear Hi.
        inversion C as [|? ? q Nd Ch']; subst. inversion Nd as [? ? ? mode k' m A M Nn|? ? ? name remap ls inner A Ct]; subst.
        + cbn in M. assert (k' = S i) as -> by congruence. specialize (IH (S i) m Nn Ch'). lia.
        + cbn in Ct. discriminate. }
    apply In_nth_error in I as [i Hi]. apply (X (S n) i) in Ch; [lia|exact Hi].
Qed.
(** The hypotheses are met: layers are shown at some frames, so three layers
    whose mattes follow each other want a recursion of three. *)
Example C11_deep_shown : active (nth 0 (co_layers (ladder 2)) layer_default) f1 /\ drawn_chain (ladder 2) f1 2 /\ ~ drawn_chain (ladder 2) f1 3.
Proof.
  assert (Sc : sound_comp E0 (ladder 2)).
  { split; [|constructor]. repeat (constructor; [split; [constructor|exact I]|]). constructor. }
  split; [split; reflexivity|]. split.
  - apply (C11_depth E0 (ladder 2) f1 affine_identity f1 renderer_new 2 Sc used_new). vm_compute. reflexivity.
  - intros D. apply (C11_depth E0 (ladder 2) f1 affine_identity f1 renderer_new 3 Sc used_new) in D. vm_compute in D. discriminate.
Qed.
