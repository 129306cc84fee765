(** Property theorems about the renderer (C01-C12, C21, C22, C49).
    Each theorem only refers to the model (Render.v and below) and to the
    specification RenderSpec.v. *)
From Coq Require Import ZArith Reals Bool List Arith String Lia Relations.
From Flocq Require Import Core BinarySingleNaN.
From Verif Require Import F64 Kurbo Value Animated Batch Render RenderSpec
  RenderFacts RenderFacts2 RenderFacts3 Examples.
Import ListNotations.

(** ** C01 *)
Theorem C01_balanced : forall E fuel c frame tf alpha r,
  r_out (append E fuel c frame tf alpha r) = Ok tt ->
  exists body,
    events (append E fuel c frame tf alpha r) =
      EvPushClip tf (SkRect f0 f0 (f_of_Z (co_width c)) (f_of_Z (co_height c))) :: body ++ [EvPop]
    /\ nested body.
Proof. exact append_nested. Qed.
(** Also when it panics, or has only run for a while: no close without its open. *)
Theorem C01_prefix : forall E fuel c frame tf alpha r n,
  exists stack,
    consume_all [] (firstn n (events (append E fuel c frame tf alpha r))) = Some stack.
Proof.
  intros. destruct (append_never_overcloses E fuel c frame tf alpha r) as (s & H).
  rewrite <- (firstn_skipn n (events _)), consume_all_app in H.
  destruct (consume_all [] (firstn n _)); [eauto|discriminate].
Qed.
Example C01_applies : exists body, nested body /\ List.length body = 22 /\
  events (append E0 5 comp1 (f_of_Z 3) affine_identity f1 renderer_new) =
  EvPushClip affine_identity (SkRect f0 f0 (f_of_Z 100) (f_of_Z 50)) :: body ++ [EvPop].
Proof.
  destruct (C01_balanced E0 5 comp1 (f_of_Z 3) affine_identity f1 renderer_new) as (b & H & N).
  - vm_compute. reflexivity.
  - exists b. repeat split; auto.
    assert (L : List.length (events (append E0 5 comp1 (f_of_Z 3) affine_identity f1 renderer_new)) = 24)
      by (vm_compute; reflexivity).
    rewrite H in L. simpl in L. rewrite app_length in L. simpl in L. lia.
Qed.

(** ** C02 *)
Theorem C02_reuse : forall E fuel c frame tf alpha r,
  used r ->
  r_out (append E fuel c frame tf alpha r) = r_out (append E fuel c frame tf alpha renderer_new) /\
  events (append E fuel c frame tf alpha r) = events (append E fuel c frame tf alpha renderer_new).
Proof. intros. now rewrite (append_reuse E fuel c frame tf alpha r). Qed.
Example C02_applies :
  used (r_st (append E0 5 comp1 (f_of_Z 3) affine_identity f1 renderer_new)).
Proof. apply used_append; [apply used_new|vm_compute; reflexivity]. Qed.

(** ** C03 *)
(** Full claim: whatever sink call panicked.  It is false. *)
Definition clip_sizes (es : list event) : list nat :=
  flat_map (fun e => match e with EvPushClip _ (SkPath p) => [List.length p] | _ => [] end) es.
Theorem C03_refuted :
  ~ (forall E fuel c frame tf alpha r,
       used_crash (fun _ => False) r ->
       events (append E fuel c frame tf alpha r) = events (append E fuel c frame tf alpha renderer_new)).
Proof.
  intros H.
  set (x := append E0 5 comp1 (f_of_Z 3) affine_identity f1 renderer_new).
  set (p := nth 15 (r_trace x) (EvPop, renderer_new)).
  assert (Hin : In p (r_trace x)) by (apply nth_In; vm_compute; auto 30).
  assert (Hu : used_crash (fun _ => False) (snd p)).
  { apply (uc_crash _ E0 5 comp1 (f_of_Z 3) affine_identity f1 renderer_new (fst p) (snd p));
      [apply uc_new| |tauto]. rewrite <- surjective_pairing. exact Hin. }
  specialize (H E0 5 comp1 (f_of_Z 3) affine_identity f1 (snd p) Hu).
  apply (f_equal clip_sizes) in H. vm_compute in H. discriminate.
Qed.
(** What does hold: any number of panics in sink calls other than a mask's
    clip, and any panics inside velato itself. *)
Theorem C03_panic_safe_partial : forall E fuel c frame tf alpha r,
  used_crash is_mask_clip r ->
  r_out (append E fuel c frame tf alpha r) = r_out (append E fuel c frame tf alpha renderer_new) /\
  events (append E fuel c frame tf alpha r) = events (append E fuel c frame tf alpha renderer_new).
Proof. intros. now rewrite (append_reuse_crash E fuel c frame tf alpha r). Qed.
Example C03_applies :
  let x := append E0 5 comp1 (f_of_Z 3) affine_identity f1 renderer_new in
  used_crash is_mask_clip (snd (nth 17 (r_trace x) (EvPop, renderer_new))) /\
  snd (nth 17 (r_trace x) (EvPop, renderer_new)) <> renderer_new.
Proof.
  intros x. set (p := nth 17 (r_trace x) (EvPop, renderer_new)). split.
  - apply (uc_crash _ E0 5 comp1 (f_of_Z 3) affine_identity f1 renderer_new (fst p) (snd p)).
    + apply uc_new.
    + rewrite <- surjective_pairing. apply nth_In. vm_compute. auto 30.
    + vm_compute. tauto.
  - intros H. apply (f_equal (fun r => List.length (b_draws (rn_batch r)))) in H.
    vm_compute in H. discriminate.
Qed.

(** ** C04 *)
Theorem C04_window : forall E c set ly idx tf alpha frame es,
  layer_draws E c set ly idx tf alpha frame es ->
  (es <> [] <-> fleb (ly_in ly) frame = true /\ fltb frame (ly_out ly) = true).
Proof.
  intros E c set ly idx tf alpha frame es H. split.
  - intros Hne. destruct (in_window ly frame) eqn:Ew; [now apply active_in_window in Ew|].
    apply layer_draws_inactive in H; [congruence|]. rewrite active_in_window. congruence.
  - intros Ha. destruct (layer_body_nested _ _ _ _ _ _ _ _ _ Ha H) as (b & -> & _). discriminate.
Qed.
(** An inactive layer always returns, whatever it contains or refers to. *)
Theorem C04_inactive : forall E c set ly idx tf alpha frame,
  ~ (fleb (ly_in ly) frame = true /\ fltb frame (ly_out ly) = true) ->
  layer_draws E c set ly idx tf alpha frame [].
Proof. intros. now apply layer_draws_inactive. Qed.
(** The comparisons mean what they say. *)
Theorem C04_window_reals : forall ly frame,
  is_finite (ly_in ly) = true -> is_finite (ly_out ly) = true -> is_finite frame = true ->
  (active ly frame <-> (B2R (ly_in ly) <= B2R frame < B2R (ly_out ly))%R).
Proof.
  intros ly frame H1 H2 H3. unfold active, fleb, fltb. rewrite Bleb_correct, Bltb_correct by assumption.
  split.
  - intros [A B]. split.
    + destruct (Rle_bool_spec (B2R (ly_in ly)) (B2R frame)); [assumption|discriminate].
    + destruct (Rlt_bool_spec (B2R frame) (B2R (ly_out ly))); [assumption|discriminate].
  - intros [A B]. split; [now apply Rle_bool_true|now apply Rlt_bool_true].
Qed.
(** At a NaN frame nothing is drawn at all. *)
Theorem C04_nan : forall E c tf alpha r,
  rn_mask r = [] ->
  append_draws E c fnan tf alpha r [EvPushClip tf (full_rect c); EvPop].
Proof.
  intros E c tf alpha r Hr. apply append_draws_iff; auto.
  exists (map (fun _ => []) (visible (fun p => ly_is_mask (snd p)) (rev (enumerate (co_layers c))))).
  split.
  - induction (visible _ _) as [|[i ly] l IH]; simpl; constructor; auto.
    apply layer_draws_inactive; auto. intros [A _]. cbn [snd] in A.
    assert (fleb (ly_in ly) fnan = false) by (destruct (ly_in ly) as [[]|[]| |[]]; reflexivity).
    congruence.
  - induction (visible _ _); simpl; auto.
Qed.

(** ** C05 *)
Theorem C05_back_to_front : forall E c frame tf alpha r es,
  used r -> append_draws E c frame tf alpha r es ->
  exists calls : list (list event),
    Forall2 (fun p e => layer_draws E c (co_layers c) (snd p) (fst p) tf alpha frame e)
            (filter (fun p => negb (ly_is_mask (snd p))) (rev (enumerate (co_layers c)))) calls /\
    es = EvPushClip tf (full_rect c) :: List.concat calls ++ [EvPop].
Proof.
  intros E c frame tf alpha r es Hr H. apply used_clean in Hr. subst r.
  now apply append_draws_iff in H.
Qed.
(** ... and the groups announced at depth one. *)
Theorem C05_groups : forall E c frame tf alpha r es,
  used r -> append_draws E c frame tf alpha r es ->
  top_groups 0 es =
  map (fun p => (ly_name (snd p), fst p))
      (filter (fun p => negb (ly_is_mask (snd p)) &&
                        (fleb (ly_in (snd p)) frame && fltb frame (ly_out (snd p))))
              (rev (enumerate (co_layers c)))).
Proof.
  intros E c frame tf alpha r es Hr. apply used_clean in Hr. subst r. now apply append_top_groups.
Qed.
(** [enumerate] is position and element. *)
Theorem enumerate_spec : forall (A : Type) (l : list A) k i x,
  nth_error (enumerate l) k = Some (i, x) <-> i = k /\ nth_error l k = Some x.
Proof.
  intros A l. unfold enumerate.
  assert (G : forall a k i (x : A), nth_error (combine (seq a (List.length l)) l) k = Some (i, x)
              <-> i = a + k /\ nth_error l k = Some x).
  { induction l as [|y l IH]; intros a k i x.
    - simpl. destruct k; simpl; (split; [discriminate|intros [_ H]; discriminate]).
    - destruct k; simpl.
      + rewrite Nat.add_0_r. split; [intros [= -> ->]; auto|intros [-> [= ->]]; auto].
      + rewrite IH. now rewrite Nat.add_succ_r. }
  intros k i x. apply (G 0 k i x).
Qed.
Example C05_applies : exists es,
  append_draws E0 comp1 (f_of_Z 3) affine_identity f1 renderer_new es /\
  top_groups 0 es = [("inst"%string, 2); ("content"%string, 1)].
Proof.
  eexists. split; [exists 5; split; [vm_compute; reflexivity|reflexivity]|].
  vm_compute. reflexivity.
Qed.

(** ** C06 *)
Theorem C06_matte : forall E c set ly idx ptf alpha frame mode k es,
  active ly frame -> ly_mask_layer ly = Some (mode, k) ->
  (layer_draws E c set ly idx ptf alpha frame es <->
   exists matte own,
     match nth_error set k with
     | Some m => layer_draws E c set m 0 ptf alpha frame matte
     | None => matte = []
     end /\
     layer_draws E c set (without_matte ly) idx ptf alpha frame
       (EvBegin (ly_name ly) idx :: own ++ [EvEnd]) /\
     es = EvBegin (ly_name ly) idx
          :: EvPushLayer (mkBlend MixNormal ComposeSrcOver) f32_one ptf (full_rect c) :: matte
          ++ EvPushLayer mode f32_one ptf (full_rect c) :: own ++ [EvPop; EvPop; EvEnd]).
Proof. exact layer_draws_matte. Qed.
Definition comp1_content : layer := nth 1 (co_layers comp1) layer_default.
Example C06_applies :
  active comp1_content (f_of_Z 3) /\
  ly_mask_layer comp1_content = Some (mkBlend MixNormal ComposeSrcIn, 0) /\
  exists es, layer_draws E0 comp1 (co_layers comp1) comp1_content 1 affine_identity f1 (f_of_Z 3) es
             /\ List.length es = 14.
Proof.
  split; [split; vm_compute; reflexivity|]. split; [reflexivity|].
  eexists. split; [exists 5; split; [vm_compute; reflexivity|reflexivity]|]. vm_compute. reflexivity.
Qed.

(** ** C07 *)
Theorem C07_masks : forall E c set ly idx ptf alpha frame es,
  active ly frame -> ly_mask_layer ly = None ->
  (layer_draws E c set ly idx ptf alpha frame es <->
   exists paths own,
     Forall2 (fun m p => geometry_eval E (mk_geometry m) frame = Ok p) (ly_masks ly) paths /\
     layer_draws E c set (without_masks ly) idx ptf alpha frame
       (EvBegin (ly_name ly) idx :: own ++ [EvEnd]) /\
     es = EvBegin (ly_name ly) idx
          :: map (fun p => EvPushClip (compute_transform E set ly ptf frame) (SkPath p)) paths
          ++ own ++ repeat EvPop (List.length (ly_masks ly)) ++ [EvEnd]).
Proof. exact layer_draws_masks. Qed.
Example C07_applies :
  active (without_matte comp1_content) (f_of_Z 3) /\ ly_mask_layer (without_matte comp1_content) = None /\
  exists es, layer_draws E0 comp1 (co_layers comp1) (without_matte comp1_content) 1 affine_identity f1 (f_of_Z 3) es
             /\ clip_sizes es = [4; 4].
Proof.
  split; [split; vm_compute; reflexivity|]. split; [reflexivity|].
  eexists. split; [exists 5; split; [vm_compute; reflexivity|reflexivity]|]. vm_compute. reflexivity.
Qed.

(** ** C08 *)
Theorem C08_parent_chain : forall E set ly global frame ps,
  ancestors set (ly_parent ly) ps ->
  compute_transform E set ly global frame =
  affine_mul global (chain_product E frame ps (transform_eval E (ly_transform ly) frame)).
Proof. exact compute_transform_chain. Qed.
(** Every chain without a cycle has such a list of ancestors (exactly one). *)
Theorem C08_acyclic_chain : forall set o,
  (forall i, ~ clos_trans nat (parent_link set) i i) ->
  exists ps, ancestors set o ps /\ forall ps', ancestors set o ps' -> ps' = ps.
Proof.
  intros set o H. destruct (acyclic_ancestors set H o) as (ps & Hp).
  exists ps. split; auto. intros ps' Hp'. eapply ancestors_fun; eauto.
Qed.
Example C08_applies :
  ancestors (co_layers comp1) (Some 2) [nth 2 (co_layers comp1) layer_default; comp1_content].
Proof. eapply anc_step; [reflexivity|]. eapply anc_step; [reflexivity|]. apply anc_none. Qed.

(** ** C09 *)
Theorem C09_cycles : forall E set ly global frame, exists ps,
  ancestors_upto set (ly_parent ly) ps /\ List.length ps <= List.length set /\
  compute_transform E set ly global frame =
  affine_mul global (chain_product E frame ps (transform_eval E (ly_transform ly) frame)).
Proof.
  intros E set ly global frame.
  destruct (parent_chain_upto E set frame (List.length set) (ly_parent ly)
              (transform_eval E (ly_transform ly) frame)) as (ps & A & B & C).
  exists ps. repeat split; auto. unfold compute_transform. now rewrite C.
Qed.

Definition cyc_layer (p : nat) : layer := mk_layer "cyc" (Some p) [] false None CNone.
Example C09_applies :
  parent_link [cyc_layer 1; cyc_layer 0] 0 1 /\ parent_link [cyc_layer 1; cyc_layer 0] 1 0.
Proof. split; eexists; split; reflexivity. Qed.

(** ** C10 *)
Theorem C10_terminates : forall E c frame tf alpha r,
  acyclic c ->
  exists fuel, r_out (append E fuel c frame tf alpha r) <> Oof /\
    forall fuel', fuel <= fuel' ->
      append E fuel' c frame tf alpha r = append E fuel c frame tf alpha r.
Proof.
  intros E c frame tf alpha r Ha. exists (layer_count c).
  pose proof (append_acyclic E c frame tf alpha r Ha). split; auto.
  intros fuel' Hle. now apply append_fuel_mono.
Qed.
(** The recursion is never deeper than the number of layers. *)
Theorem C10_depth : forall E c frame tf alpha r,
  acyclic c ->
  r_out (append E (List.length (co_layers c) +
                   fold_right (fun a n => List.length (snd a) + n) 0 (co_assets c))
                c frame tf alpha r) <> Oof.
Proof. intros. now apply append_acyclic. Qed.
(** Budgets do not influence a result. *)
Theorem C10_budget_irrelevant : forall E fuel fuel' c frame tf alpha r,
  r_out (append E fuel c frame tf alpha r) <> Oof ->
  r_out (append E fuel' c frame tf alpha r) <> Oof ->
  append E fuel c frame tf alpha r = append E fuel' c frame tf alpha r.
Proof.
  intros E fuel fuel' c frame tf alpha r H H'.
  destruct (Nat.le_ge_cases fuel fuel') as [L|L].
  - symmetry. now apply append_fuel_mono.
  - now apply append_fuel_mono.
Qed.
Example C10_applies : acyclic comp1.
Proof.
  set (rank := fun p : pos => match p with
     | (None, 0) => 1 | (None, 1) => 2 | (None, 2) => 3 | _ => 0 end).
  assert (R : forall p q, refers comp1 p q -> rank q < rank p).
  { intros p q H. destruct H as [s i ly mode k m H1 H2 H3|s i ly name remap j m H1 H2 H3].
    - destruct s as [n|].
      + unfold layer_at, scope_layers, find_asset in H1. cbn -[String.eqb] in H1.
        destruct (String.eqb "pre" n); [|destruct i; discriminate].
        destruct i as [|[|i]]; simpl in H1; try (injection H1 as <-; discriminate).
        destruct i; discriminate.
      + unfold layer_at in H1. simpl in H1.
        destruct i as [|[|[|i]]]; simpl in H1; try (injection H1 as <-; try discriminate).
        * injection H2 as <- <-. simpl. lia.
        * destruct i; discriminate.
    - destruct s as [n|].
      + unfold layer_at, scope_layers, find_asset in H1. cbn -[String.eqb] in H1.
        destruct (String.eqb "pre" n); [|destruct i; discriminate].
        destruct i as [|[|i]]; simpl in H1; try (injection H1 as <-; discriminate).
        destruct i; discriminate.
      + unfold layer_at in H1. simpl in H1.
        destruct i as [|[|[|i]]]; simpl in H1; try (injection H1 as <-; try discriminate).
        * simpl. lia.
        * destruct i; discriminate. }
  assert (T : forall p q, clos_trans pos (refers comp1) p q -> rank q < rank p).
  { induction 1; [now apply R|lia]. }
  intros p H. apply T in H. lia.
Qed.

(** ** C21 *)
Theorem C21_precomp : forall E c set ly idx ptf alpha frame name remap es,
  active ly frame -> ly_mask_layer ly = None -> ly_masks ly = [] ->
  ly_content ly = CInstance name remap ->
  (layer_draws E c set ly idx ptf alpha frame es <->
   exists calls,
     Forall2 (fun al e =>
        layer_draws E c (match find_asset c name with Some ls => ls | None => [] end) al 0
          (compute_transform E set ly ptf frame)
          (fdiv (fmul alpha (eval E (ly_opacity ly) frame)) f100)
          (fadd (fdiv frame (ly_stretch ly)) (fdiv (fneg (ly_start_frame ly)) (ly_stretch ly))) e)
       (filter (fun al => negb (ly_is_mask al))
               (rev (match find_asset c name with Some ls => ls | None => [] end))) calls /\
     es = EvBegin (ly_name ly) idx :: List.concat calls ++ [EvEnd]).
Proof. exact layer_draws_instance. Qed.
Theorem C21_missing_asset : forall E c set ly idx ptf alpha frame name remap,
  active ly frame -> ly_mask_layer ly = None -> ly_masks ly = [] ->
  ly_content ly = CInstance name remap -> ~ In name (map fst (co_assets c)) ->
  layer_draws E c set ly idx ptf alpha frame [EvBegin (ly_name ly) idx; EvEnd].
Proof.
  intros E c set ly idx ptf alpha frame name remap Ha H1 H2 H3 H4.
  eapply layer_draws_instance; eauto. exists [].
  assert (find_asset c name = None) as ->; [|split; [constructor|reflexivity]].
  unfold find_asset. destruct (find _ (co_assets c)) as [[k ls]|] eqn:Ef; auto.
  apply find_some in Ef as [Hin Heq]. simpl in Heq. apply String.eqb_eq in Heq. subst k.
  elim H4. apply in_map_iff. exists (name, ls). auto.
Qed.
Example C21_applies :
  let ly := nth 2 (co_layers comp1) layer_default in
  active ly (f_of_Z 3) /\ ly_mask_layer ly = None /\ ly_masks ly = [] /\
  ly_content ly = CInstance "pre" None /\
  exists es, layer_draws E0 comp1 (co_layers comp1) ly 2 affine_identity f1 (f_of_Z 3) es
             /\ List.length es = 8.
Proof.
  split; [split; vm_compute; reflexivity|]. repeat (split; [reflexivity|]).
  eexists. split; [exists 5; split; [vm_compute; reflexivity|reflexivity]|]. vm_compute. reflexivity.
Qed.

(** ** C22 *)
Theorem C22_ignored_fields : forall E fuel c c' frame tf alpha r,
  erase_comp c = erase_comp c' ->
  r_out (append E fuel c frame tf alpha r) = r_out (append E fuel c' frame tf alpha r) /\
  events (append E fuel c frame tf alpha r) = events (append E fuel c' frame tf alpha r).
Proof.
  intros E fuel c c' frame tf alpha r H.
  rewrite <- (append_erase E fuel c), <- (append_erase E fuel c'), H. auto.
Qed.

Definition comp1_renamed : composition :=
  mkComp (f_of_Z 9) (f_of_Z 10) (f_of_Z 60) (co_width comp1) (co_height comp1)
         (co_assets comp1) (co_layers comp1).
Example C22_applies : comp1 <> comp1_renamed /\ erase_comp comp1 = erase_comp comp1_renamed.
Proof.
  split; [|unfold erase_comp, comp1_renamed; reflexivity].
  intros H. apply (f_equal (fun c => fltb (co_frame_rate c) (f_of_Z 60))) in H. vm_compute in H. discriminate.
Qed.

(** ** C49: the vello scene gets the same calls *)
Definition layer_bracket (o : scene_op) : option bool :=
  match o with OpPushLayer _ _ _ _ | OpPushClip _ _ => Some true | OpPop => Some false | _ => None end.
Fixpoint scene_depth (d : nat) (os : list scene_op) : option nat :=
  match os with
  | [] => Some d
  | o :: os => match layer_bracket o, d with
               | Some true, d => scene_depth (S d) os
               | Some false, S d => scene_depth d os
               | Some false, O => None
               | None, d => scene_depth d os
               end
  end.
Lemma scene_depth_nested w : nested w -> forall d rest,
  scene_depth d (flat_map vello_op (w ++ rest)) = scene_depth d (flat_map vello_op rest).
Proof.
  induction 1; intros d rest'; [reflexivity| | |].
  - simpl. destruct (pt_stroke p); simpl; apply IHnested.
  - rewrite <- app_comm_cons, <- app_assoc. destruct o; simpl in H; try contradiction; simpl;
      rewrite IHnested1; simpl; apply IHnested2.
  - rewrite <- app_comm_cons, <- app_assoc. simpl. rewrite IHnested1. simpl. apply IHnested2.
Qed.
Theorem C49_vello_balanced : forall E fuel c frame tf alpha r ops r',
  render_to_vello_scene E fuel c frame tf alpha r = (Ok ops, r') -> scene_depth 0 ops = Some 0.
Proof.
  intros E fuel c frame tf alpha r ops r'. unfold render_to_vello_scene.
  pose proof (C01_balanced E fuel c frame tf alpha r) as P.
  destruct (append E fuel c frame tf alpha r) as [o st tr]; simpl in *.
  destruct o as [[]| |]; simpl; try discriminate.
  intros [= <- _]. destruct (P eq_refl) as (b & -> & Hb).
  simpl. rewrite (scene_depth_nested b Hb). reflexivity.
Qed.
(** A stroked draw becomes a stroke, every other draw a fill, in order, with
    unchanged transform, brush and path. *)
Theorem C49_vello_draws : forall E fuel c frame tf alpha r ops r',
  render_to_vello_scene E fuel c frame tf alpha r = (Ok ops, r') ->
  flat_map (fun o => match o with
     | OpStroke s t b p => [mkPaint (Some s) t b p]
     | OpFill t b p => [mkPaint None t b p]
     | _ => [] end) ops =
  flat_map (fun e => match e with EvDraw p => [p] | _ => [] end)
    (events (append E fuel c frame tf alpha r)).
Proof.
  intros E fuel c frame tf alpha r ops r'. unfold render_to_vello_scene.
  destruct (append E fuel c frame tf alpha r) as [o st tr]; simpl in *.
  destruct o as [[]| |]; simpl; try discriminate.
  intros [= <- _]. induction (events _) as [|e es IH]; simpl; auto.
  rewrite flat_map_app, IH. f_equal. destruct e; auto. destruct p as [[s|] t b pth]; reflexivity.
Qed.
(** One operation per push, clip, pop and draw, in order, arguments unchanged. *)
Inductive transcribes : list event -> list scene_op -> Prop :=
| tc_nil : transcribes [] []
| tc_push b a t s es os : transcribes es os ->
    transcribes (EvPushLayer b a t s :: es) (OpPushLayer b a t s :: os)
| tc_clip t s es os : transcribes es os ->
    transcribes (EvPushClip t s :: es) (OpPushClip t s :: os)
| tc_pop es os : transcribes es os -> transcribes (EvPop :: es) (OpPop :: os)
| tc_fill t b p es os : transcribes es os ->
    transcribes (EvDraw (mkPaint None t b p) :: es) (OpFill t b p :: os)
| tc_stroke k t b p es os : transcribes es os ->
    transcribes (EvDraw (mkPaint (Some k) t b p) :: es) (OpStroke k t b p :: os)
| tc_begin n i es os : transcribes es os -> transcribes (EvBegin n i :: es) os
| tc_end es os : transcribes es os -> transcribes (EvEnd :: es) os.
Theorem C49_vello_transcribes : forall E fuel c frame tf alpha r ops r',
  render_to_vello_scene E fuel c frame tf alpha r = (Ok ops, r') ->
  r' = r_st (append E fuel c frame tf alpha r) /\
  transcribes (events (append E fuel c frame tf alpha r)) ops.
Proof.
  intros E fuel c frame tf alpha r ops r'. unfold render_to_vello_scene.
  destruct (append E fuel c frame tf alpha r) as [o st tr]; simpl in *.
  destruct o as [[]| |]; simpl; try discriminate.
  intros [= <- <-]. split; auto. induction (events _) as [|e es IH]; simpl; [constructor|].
  destruct e as [| | |[[|] ? ? ?]| |]; simpl; constructor; exact IH.
Qed.
Example C49_applies :
  match render_to_vello_scene E0 5 comp1 (f_of_Z 3) affine_identity f1 renderer_new with
  | (Ok ops, _) => List.length ops = 14
  | _ => False
  end.
Proof. vm_compute. reflexivity. Qed.
