(** C03: exactly what a renderer draws after a call of the sink has panicked. *)
From Coq Require Import ZArith Bool List Arith Lia String.
From Verif Require Import F64 Kurbo Value Animated Batch Render RenderSpec RenderFacts RenderFacts2 Examples PropRender.
Import ListNotations.
Close Scope string_scope.
Open Scope list_scope.
Open Scope nat_scope.

(** ** Specification *)
(** The same calls, with [s] in front of the path of the first mask. *)
Fixpoint stained (s : list path_el) (es : list event) : list event :=
  match es with
  | [] => []
  | EvPushClip t (SkPath p) :: es => EvPushClip t (SkPath (s ++ p)) :: es
  | e :: es => e :: stained s es
  end.

(** ** Runs on two renderers that differ in what is left of a mask *)
Definition clips (es : list event) : bool :=
  existsb (fun e => match e with EvPushClip _ (SkPath _) => true | _ => false end) es.
Lemma clips_is es : clips es = true <-> Exists is_mask_clip es.
Proof.
  unfold clips. rewrite existsb_exists, Exists_exists. split; intros (e & I & H); exists e; (split; [exact I|]); destruct e as [|? []| | | |]; cbn in *; auto; try discriminate; contradiction.
Qed.
Lemma stained_nil es : stained [] es = es.
Proof. induction es as [|[? ? ? ?|? []| |?|? ?|] es IH]; cbn; congruence. Qed.
Lemma stained_none s es : clips es = false -> stained s es = es.
Proof. induction es as [|[? ? ? ?|? []| |?|? ?|] es IH]; cbn; intros H; try discriminate; try reflexivity; now rewrite IH. Qed.
Lemma stained_app s a b : stained s (a ++ b) = stained s a ++ stained (if clips a then [] else s) b.
Proof.
  induction a as [|[? ? ? ?|? []| |?|? ?|] a IH]; cbn [app stained]; try reflexivity; try (rewrite IH; reflexivity).
  change (clips (EvPushClip t (SkPath els) :: a)) with true. cbv iota. now rewrite stained_nil.
Qed.
Lemma clips_app a b : clips (a ++ b) = clips a || clips b.
Proof. apply existsb_app. Qed.
Definition stains (m : M unit) : Prop := forall b s,
  let x := m (mkRenderer b s) in let y := m (mkRenderer b []) in
  r_out x = r_out y /\ rn_batch (r_st x) = rn_batch (r_st y) /\ rn_mask (r_st y) = [] /\
  events x = stained s (events y) /\ rn_mask (r_st x) = (if clips (events y) then [] else s).
Lemma events_bind (m1 m2 : M unit) r : events ((m1 ;; m2) r) = match r_out (m1 r) with Ok _ => events (m1 r) ++ events (m2 (r_st (m1 r))) | _ => events (m1 r) end.
Proof. unfold events, mbind. destruct (r_out (m1 r)); cbn [r_trace]; [apply map_app|reflexivity|reflexivity]. Qed.
Lemma stains_bind m1 m2 : stains m1 -> stains m2 -> stains (m1 ;; m2).
Proof.
  intros H1 H2 b s. cbn zeta. destruct (H1 b s) as (O1 & B1 & N1 & E1 & M1). cbn zeta in *. rewrite !events_bind.
  unfold mbind at 1 2 3 4 5 6. rewrite O1. destruct (r_out (m1 (mkRenderer b []))) as [u| |] eqn:Eq; cbn [r_out r_st].
  - set (b1 := rn_batch (r_st (m1 (mkRenderer b [])))) in *.
    assert (S1 : r_st (m1 (mkRenderer b s)) = mkRenderer b1 (if clips (events (m1 (mkRenderer b []))) then [] else s)).
    { destruct (r_st (m1 (mkRenderer b s))) as [bb mm]. cbn in *. congruence. }
    assert (S2 : r_st (m1 (mkRenderer b [])) = mkRenderer b1 []). { unfold b1. destruct (r_st (m1 (mkRenderer b []))) as [bb mm]. cbn in *. congruence. }
    rewrite S1, S2. destruct (H2 b1 (if clips (events (m1 (mkRenderer b []))) then [] else s)) as (O2 & B2 & N2 & E2 & M2). cbn zeta in *.
    split; [exact O2|]. split; [exact B2|]. split; [exact N2|]. split.
    + rewrite E1, E2. now rewrite stained_app.
    + rewrite M2, clips_app. destruct (clips (events (m1 (mkRenderer b [])))), (clips (events (m2 (mkRenderer b1 [])))); reflexivity.
  - split; [reflexivity|]. split; [exact B1|]. split; [exact N1|]. split; [exact E1|exact M1].
  - split; [reflexivity|]. split; [exact B1|]. split; [exact N1|]. split; [exact E1|exact M1].
Qed.
Lemma stains_ret : stains (ret tt). Proof. intros b s. cbn. auto. Qed.
Lemma stains_emit e : ~ is_mask_clip e -> stains (emit e).
Proof. intros H b s. destruct e as [|? []| | | |]; cbn; auto 6. destruct H. exact I. Qed.
Lemma stains_pops n : stains (emits (repeat EvPop n)).
Proof.
  intros b s. cbn zeta. unfold emits, events. cbn [r_out r_st r_trace rn_batch rn_mask]. rewrite !map_map. cbn [fst]. rewrite !map_id.
  assert (C : clips (repeat EvPop n) = false) by (induction n; auto). rewrite C, stained_none by exact C. auto.
Qed.
Lemma stains_oof : stains oof. Proof. intros b s. cbn. auto. Qed.
Lemma stains_forM {A} (l : list A) f : (forall x, In x l -> stains (f x)) -> stains (forM l f).
Proof. induction l as [|x l IH]; intros H; cbn [forM]; [apply stains_ret|]. apply stains_bind; [apply H; now left|apply IH; intros; apply H; now right]. Qed.
Lemma stains_mask E tf frame m : stains (render_mask E tf frame m).
Proof. intros b s. unfold render_mask. cbn zeta. destruct (geometry_eval E (mk_geometry m) frame); cbn; auto. Qed.
Lemma stains_shapes E shs tf alpha frame : stains (render_content_shapes E shs tf alpha frame).
Proof.
  intros b s. cbn zeta. unfold render_content_shapes. cbn [rn_batch rn_mask]. destruct (render_shapes E shs tf alpha frame b) as [b1| |]; [|cbn; auto|cbn; auto].
  destruct (batch_render E b1) as [ps| |]; [|cbn; auto|cbn; auto]. unfold events. cbn [r_out r_st r_trace rn_batch rn_mask]. rewrite !map_map. cbn [fst].
  assert (C : clips (map (fun x => EvDraw x) ps) = false) by (induction ps; auto). rewrite C, stained_none by exact C. auto.
Qed.
Lemma stains_layer E c : forall fuel set ly idx tf alpha frame, stains (render_layer E fuel c set ly idx tf alpha frame).
Proof.
  induction fuel as [|fuel IH]; intros set ly idx tf alpha frame; [apply stains_oof|]. cbn [render_layer]. destruct (negb _); [apply stains_ret|].
  apply stains_bind; [apply stains_emit; exact (fun x => x)|]. apply stains_bind.
  { destruct (ly_mask_layer ly) as [[mode k]|]; [|apply stains_ret]. apply stains_bind; [apply stains_emit; exact (fun x => x)|]. apply stains_bind; [|apply stains_emit; exact (fun x => x)].
    destruct (nth_error set k); [apply IH|apply stains_ret]. }
  apply stains_bind; [apply stains_forM; intros; apply stains_mask|]. apply stains_bind.
  { destruct (ly_content ly) as [|name remap|shs]; [apply stains_ret| |apply stains_shapes]. destruct (find_asset c name); [|apply stains_ret].
    apply stains_forM. intros al _. destruct (ly_is_mask al); [apply stains_ret|apply IH]. }
  apply stains_bind; [apply stains_pops|]. apply stains_emit. exact (fun x => x).
Qed.
Lemma append_stained E fuel c frame tf alpha r :
  r_out (append E fuel c frame tf alpha r) = r_out (append E fuel c frame tf alpha renderer_new) /\
  events (append E fuel c frame tf alpha r) = stained (rn_mask r) (events (append E fuel c frame tf alpha renderer_new)).
Proof.
  set (m := emit (EvPushClip tf (full_rect c)) ;; forM (rev (enumerate (co_layers c))) (fun '(i, ly) => if ly_is_mask ly then ret tt else render_layer E fuel c (co_layers c) ly i tf alpha frame) ;; emit EvPop).
  assert (S : stains m).
  { apply stains_bind; [apply stains_emit; exact (fun x => x)|]. apply stains_bind; [|apply stains_emit; exact (fun x => x)]. apply stains_forM. intros [i ly] _. destruct (ly_is_mask ly); [apply stains_ret|apply stains_layer]. }
  destruct (S (batch_clear (rn_batch r)) (rn_mask r)) as (O & _ & _ & Ev & _). exact (conj O Ev).
Qed.
(** During the clip of a mask the renderer holds the path of the mask. *)
Definition holds_mask (x : call) : Prop := match fst x with EvPushClip _ (SkPath p) => rn_mask (snd x) = p | _ => True end.
Definition held (m : M unit) : Prop := forall r, Forall holds_mask (r_trace (m r)).
Lemma held_bind m1 m2 : held m1 -> held m2 -> held (m1 ;; m2).
Proof. intros H1 H2 r. unfold mbind. destruct (r_out (m1 r)); cbn [r_trace]; auto. apply Forall_app. auto. Qed.
Lemma held_ret : held (ret tt). Proof. constructor. Qed.
Lemma held_emit e : ~ is_mask_clip e -> held (emit e).
Proof. intros H r. cbn. constructor; [|constructor]. destruct e as [|? []| | | |]; cbn; auto. destruct H. exact I. Qed.
Lemma held_forM {A} (l : list A) f : (forall x, In x l -> held (f x)) -> held (forM l f).
Proof. induction l as [|x l IH]; intros H; cbn [forM]; [apply held_ret|]. apply held_bind; [apply H; now left|apply IH; intros; apply H; now right]. Qed.
Lemma held_layer E c : forall fuel set ly idx tf alpha frame, held (render_layer E fuel c set ly idx tf alpha frame).
Proof.
  induction fuel as [|fuel IH]; intros set ly idx tf alpha frame; [constructor|]. cbn [render_layer]. destruct (negb _); [apply held_ret|].
  apply held_bind; [apply held_emit; exact (fun x => x)|]. apply held_bind.
  { destruct (ly_mask_layer ly) as [[mode k]|]; [|apply held_ret]. apply held_bind; [apply held_emit; exact (fun x => x)|]. apply held_bind; [|apply held_emit; exact (fun x => x)].
    destruct (nth_error set k); [apply IH|apply held_ret]. }
  apply held_bind; [apply held_forM; intros x _ r; unfold render_mask; destruct (geometry_eval E (mk_geometry x) frame); cbn; constructor; [reflexivity|constructor]|]. apply held_bind.
  { destruct (ly_content ly) as [|name remap|shs]; [apply held_ret| |].
    - destruct (find_asset c name); [|apply held_ret]. apply held_forM. intros al _. destruct (ly_is_mask al); [apply held_ret|apply IH].
    - intros r. unfold render_content_shapes. destruct (render_shapes _ _ _ _ _ _) as [b| |]; [|constructor|constructor]. destruct (batch_render E b); [|constructor|constructor].
      cbn [r_trace]. apply Forall_map, Forall_forall. intros p _. exact I. }
  apply held_bind; [|apply held_emit; exact (fun x => x)]. intros r. cbn [emits r_trace]. apply Forall_map, Forall_forall. intros e He. apply repeat_spec in He. subst e. exact I.
Qed.
Lemma append_held E fuel c frame tf alpha : held (append E fuel c frame tf alpha).
Proof.
  intros r. unfold append.
  apply (held_bind (emit (EvPushClip tf (full_rect c))) (forM (rev (enumerate (co_layers c))) (fun '(i, ly) => if ly_is_mask ly then ret tt else render_layer E fuel c (co_layers c) ly i tf alpha frame) ;; emit EvPop)).
  - apply held_emit. exact (fun x => x).
  - apply held_bind; [|apply held_emit; exact (fun x => x)]. apply held_forM. intros [i ly] _. destruct (ly_is_mask ly); [apply held_ret|apply held_layer].
Qed.

(** ** C03 *)
(** If the sink panics in the clip of a mask, the next append makes the calls
    of a fresh renderer, but with the path of that clip in front of the path of
    the first mask. *)
Theorem C03_stale : forall E1 fuel1 c1 frame1 tf1 alpha1 r t p r', In (EvPushClip t (SkPath p), r') (r_trace (append E1 fuel1 c1 frame1 tf1 alpha1 r)) ->
  forall E fuel c frame tf alpha,
  r_out (append E fuel c frame tf alpha r') = r_out (append E fuel c frame tf alpha renderer_new) /\
  events (append E fuel c frame tf alpha r') = stained p (events (append E fuel c frame tf alpha renderer_new)).
Proof.
  intros E1 fuel1 c1 frame1 tf1 alpha1 r t p r' I E fuel c frame tf alpha. pose proof (append_held E1 fuel1 c1 frame1 tf1 alpha1 r) as H. rewrite Forall_forall in H. specialize (H _ I).
  cbn in H. rewrite <- H. apply append_stained.
Qed.
(** So it is safe to go on exactly if that path is empty or what is drawn next
    has no mask. *)
Theorem C03_exact : forall E1 fuel1 c1 frame1 tf1 alpha1 r t p r', In (EvPushClip t (SkPath p), r') (r_trace (append E1 fuel1 c1 frame1 tf1 alpha1 r)) ->
  forall E fuel c frame tf alpha,
  events (append E fuel c frame tf alpha r') = events (append E fuel c frame tf alpha renderer_new) <->
  p = [] \/ ~ Exists is_mask_clip (events (append E fuel c frame tf alpha renderer_new)).
Proof.
  intros E1 fuel1 c1 frame1 tf1 alpha1 r t p r' I E fuel c frame tf alpha. destruct (C03_stale _ _ _ _ _ _ _ _ _ _ I E fuel c frame tf alpha) as [_ ->].
  generalize (events (append E fuel c frame tf alpha renderer_new)). intros es. rewrite <- clips_is. split.
  - intros H. destruct p as [|e p]; [now left|right]. intros C. clear I. induction es as [|x es IH]; [discriminate|].
    destruct x as [? ? ? ?|? []| |?|? ?|]; cbn in H, C; try (apply IH; [congruence|exact C]).
    assert (Q : List.length (e :: p ++ els) = List.length els) by congruence. cbn in Q. rewrite app_length in Q. lia.
  - intros [->|H]; [apply stained_nil|]. apply stained_none. destruct (clips es); [destruct H; reflexivity|reflexivity].
Qed.
(** The hypotheses are met: in the clip of the first mask of [comp1], whose
    path has elements, and which is drawn next too. *)
Example C03_stale_applies : exists t p r', In (EvPushClip t (SkPath p), r') (r_trace (append E0 5 comp1 (f_of_Z 3) affine_identity f1 renderer_new)) /\
  p <> [] /\ Exists is_mask_clip (events (append E0 5 comp1 (f_of_Z 3) affine_identity f1 renderer_new)).
Proof.
  set (x := append E0 5 comp1 (f_of_Z 3) affine_identity f1 renderer_new). set (q := nth 15 (r_trace x) (EvPop, renderer_new)).
  assert (Hin : In q (r_trace x)) by (apply nth_In; vm_compute; auto 30).
  assert (X : match q with (EvPushClip _ (SkPath (_ :: _)), _) => True | _ => False end) by (vm_compute; exact I).
  destruct q as [[|t [|[|e p]]| | | |] r']; try contradiction. exists t, (e :: p), r'. split; [exact Hin|]. split; [discriminate|].
  apply Exists_exists. exists (EvPushClip t (SkPath (e :: p))). split; [|exact I]. unfold events. apply in_map_iff. exists (EvPushClip t (SkPath (e :: p)), r'). split; [reflexivity|exact Hin].
Qed.
