(** Exact description of the sink calls of a layer and of [append]. *)
From Coq Require Import ZArith Bool List Arith String Lia Relations.
From Flocq Require Import Core BinarySingleNaN.
From Verif Require Import F64 Kurbo Value Animated Batch Render RenderSpec RenderFacts.
Import ListNotations.

Lemma Forall2_impl {A B} (P Q : A -> B -> Prop) l l' :
  (forall a b, P a b -> Q a b) -> Forall2 P l l' -> Forall2 Q l l'.
Proof. intros H. induction 1; constructor; auto. Qed.

Lemma active_in_window ly frame : active ly frame <-> in_window ly frame = true.
Proof. unfold active, in_window. now rewrite andb_true_iff. Qed.

(** Runs from the fresh renderer that return leave it fresh; so sequencing is
    concatenation of calls. *)
Definition emits_ok (m : M unit) (es : list event) : Prop :=
  r_out (m renderer_new) = Ok tt /\ events (m renderer_new) = es.
Lemma emits_ok_fun m es es' : emits_ok m es -> emits_ok m es' -> es = es'.
Proof. intros [_ <-] [_ <-]. reflexivity. Qed.

Lemma emits_ok_bind m1 m2 es :
  good m1 -> (emits_ok (m1 ;; m2) es <-> exists a b, emits_ok m1 a /\ emits_ok m2 b /\ es = a ++ b).
Proof.
  intros G. split.
  - intros [H1 H2]. apply mbind_out_ok in H1 as ([] & H1 & H3).
    assert (Hst := good_st _ G H1). rewrite Hst in H3.
    exists (events (m1 renderer_new)), (events (m2 renderer_new)).
    repeat split; auto. rewrite <- H2. unfold events.
    rewrite (mbind_events_ok _ _ _ tt H1), Hst. simpl. apply map_app.
  - intros (a & b & [A1 A2] & [B1 B2] & ->).
    assert (Hst := good_st _ G A1). unfold emits_ok, events in *.
    rewrite (mbind_events_ok _ _ _ tt A1), Hst. simpl. rewrite map_app. unfold call in *.
    split; congruence.
Qed.
Lemma emits_ok_ret es : emits_ok (ret tt) es <-> es = [].
Proof. unfold emits_ok, events. simpl. intuition. Qed.
Lemma emits_ok_emit e es : emits_ok (emit e) es <-> es = [e].
Proof. unfold emits_ok, events. simpl. intuition. Qed.
Lemma emits_ok_emits e es : emits_ok (emits e) es <-> es = e.
Proof. unfold emits_ok, events. simpl. rewrite map_map, map_id. intuition. Qed.
Lemma emits_ok_forM {A} (l : list A) (f : A -> M unit) es :
  (forall x, In x l -> good (f x)) ->
  (emits_ok (forM l f) es <-> exists ess, Forall2 (fun x e => emits_ok (f x) e) l ess /\ es = List.concat ess).
Proof.
  revert es. induction l as [|x l IH]; intros es G; simpl.
  - rewrite emits_ok_ret. split.
    + intros ->. exists []. auto.
    + intros (ess & H & ->). inversion H. reflexivity.
  - rewrite emits_ok_bind by (apply G; now left). split.
    + intros (a & b & Ha & Hb & ->). apply IH in Hb as (ess & H & ->); [|intros; apply G; now right].
      exists (a :: ess). auto.
    + intros (ess & H & ->). inversion H; subst. exists y, (List.concat l').
      split; [exact H2|]. split; [|reflexivity].
      apply IH; [intros; apply G; now right|]. eauto.
Qed.

(** * Masks *)
Definition mask_clips (E : Ext) (tf : affine) (frame : f64) (ms : list mask) (es : list event) : Prop :=
  exists paths, Forall2 (fun m p => geometry_eval E (mk_geometry m) frame = Ok p) ms paths /\
                es = map (fun p => EvPushClip tf (SkPath p)) paths.
Lemma emits_ok_mask E tf frame m es :
  emits_ok (render_mask E tf frame m) es <->
  exists p, geometry_eval E (mk_geometry m) frame = Ok p /\ es = [EvPushClip tf (SkPath p)].
Proof.
  unfold emits_ok, render_mask. destruct (geometry_eval E (mk_geometry m) frame); simpl.
  - split.
    + intros [_ <-]. eauto.
    + intros (p & [= ->] & ->). auto.
  - split; [intros [H _]; discriminate|intros (p & H & _); discriminate].
  - split; [intros [H _]; discriminate|intros (p & H & _); discriminate].
Qed.
Lemma emits_ok_masks E tf frame ms es :
  emits_ok (forM ms (render_mask E tf frame)) es <-> mask_clips E tf frame ms es.
Proof.
  rewrite emits_ok_forM by (intros; apply good_mask_clip). unfold mask_clips. split.
  - intros (ess & H & ->). induction H as [|m e ms ess Hm H IH].
    + exists []. auto.
    + apply emits_ok_mask in Hm as (p & Hp & ->). destruct IH as (ps & Hps & IH).
      exists (p :: ps). simpl. rewrite IH. auto.
  - intros (ps & H & ->). induction H as [|m p ms ps Hp H IH]; simpl.
    + exists []. auto.
    + destruct IH as (ess & Hess & IH). exists ([EvPushClip tf (SkPath p)] :: ess). split.
      * constructor; auto. apply emits_ok_mask. eauto.
      * simpl. now rewrite IH.
Qed.

(** * Shape content *)
Lemma emits_ok_content E shapes tf alpha frame es :
  emits_ok (render_content_shapes E shapes tf alpha frame) es <->
  exists b ps, render_shapes E shapes tf alpha frame batch_empty = Ok b /\
               batch_render E b = Ok ps /\ es = map EvDraw ps.
Proof.
  unfold emits_ok, render_content_shapes. simpl rn_batch.
  destruct (render_shapes E shapes tf alpha frame batch_empty) as [b| |]; simpl.
  - destruct (batch_render E b) as [ps| |] eqn:Eb; simpl.
    + unfold events. simpl. rewrite map_map. simpl. split.
      * intros [_ <-]. exists b, ps. auto.
      * intros (b' & ps' & [= <-] & H & ->). rewrite Eb in H. injection H as <-. auto.
    + split; [intros [H _]; discriminate|]. intros (b' & ps' & [= <-] & H & _). congruence.
    + split; [intros [H _]; discriminate|]. intros (b' & ps' & [= <-] & H & _). congruence.
  - split; [intros [H _]; discriminate|]. intros (b' & ps' & H & _); discriminate.
  - split; [intros [H _]; discriminate|]. intros (b' & ps' & H & _); discriminate.
Qed.

(** * Layers *)
Definition visible {A} (is_mask : A -> bool) (l : list A) : list A := filter (fun x => negb (is_mask x)) l.

Definition content_draws (E : Ext) (c : composition) (ly : layer) (tf : affine) (alpha frame : f64)
  (es : list event) : Prop :=
  match ly_content ly with
  | CNone => es = []
  | CInstance name _ =>
      match find_asset c name with
      | None => es = []
      | Some ls =>
          exists ess,
            Forall2 (fun al e => layer_draws E c ls al 0 tf alpha
                       (fadd (fdiv frame (ly_stretch ly)) (fdiv (fneg (ly_start_frame ly)) (ly_stretch ly))) e)
                    (visible ly_is_mask (rev ls)) ess
            /\ es = List.concat ess
      end
  | CShape shapes =>
      exists b ps, render_shapes E shapes tf alpha frame batch_empty = Ok b /\
                   batch_render E b = Ok ps /\ es = map EvDraw ps
  end.
Definition matte_draws (E : Ext) (c : composition) (set : list layer) (ly : layer) (ptf : affine)
  (alpha0 frame : f64) (es : list event) : Prop :=
  match ly_mask_layer ly with
  | None => es = []
  | Some (mode, k) =>
      exists m, match nth_error set k with
                | Some mly => layer_draws E c set mly 0 ptf alpha0 frame m
                | None => m = []
                end /\
      es = EvPushLayer (blend_of_mix MixNormal) f32_one ptf (full_rect c) :: m
           ++ [EvPushLayer mode f32_one ptf (full_rect c)]
  end.

Lemma emits_ok_mono E fuel fuel' c set ly idx tf alpha frame es :
  fuel <= fuel' -> emits_ok (render_layer E fuel c set ly idx tf alpha frame) es ->
  emits_ok (render_layer E fuel' c set ly idx tf alpha frame) es.
Proof.
  intros Hle [H1 H2]. unfold emits_ok.
  rewrite (below_render_layer E fuel fuel' c set ly idx tf alpha frame Hle); [auto|].
  rewrite H1. discriminate.
Qed.
Lemma layer_draws_fun E c set ly idx tf alpha frame es es' :
  layer_draws E c set ly idx tf alpha frame es -> layer_draws E c set ly idx tf alpha frame es' ->
  es = es'.
Proof.
  intros (f & A) (f' & B).
  apply (emits_ok_mono _ f (f + f')) in A; [|lia].
  apply (emits_ok_mono _ f' (f + f')) in B; [|lia].
  eapply emits_ok_fun; eauto.
Qed.

Lemma forM_visible {A} (is_mask : A -> bool) l (g : A -> M unit) es :
  (forall x, In x l -> good (g x)) ->
  (emits_ok (forM l (fun x => if is_mask x then ret tt else g x)) es <->
   exists ess, Forall2 (fun x e => emits_ok (g x) e) (visible is_mask l) ess /\ es = List.concat ess).
Proof.
  intros G. rewrite emits_ok_forM.
  2: { intros x Hx. destruct (is_mask x); [apply good_ret|now apply G]. }
  split.
  - intros (ess & H & ->). induction H as [|x e l ess Hx H IH].
    + exists []. simpl. auto.
    + destruct IH as (ess' & H' & E'); [intros; apply G; now right|].
      unfold visible in *. simpl. destruct (is_mask x); simpl.
      * apply emits_ok_ret in Hx. subst e. exists ess'. auto.
      * exists (e :: ess'). simpl. rewrite E'. auto.
  - intros (ess & H & ->). revert ess H. induction l as [|x l IH]; simpl; intros ess H.
    + inversion H. exists []. auto.
    + unfold visible in *. simpl in H. destruct (is_mask x) eqn:Ex; simpl in H.
      * destruct (IH (fun y Hy => G y (or_intror Hy)) ess H) as (ess' & H' & E').
        exists ([] :: ess'). split; [|exact E'].
        constructor; auto. rewrite Ex. now apply emits_ok_ret.
      * inversion H; subst. destruct (IH (fun y Hy => G y (or_intror Hy)) l' H4) as (ess' & H' & E').
        exists (y :: ess'). simpl. rewrite E'. split; auto. constructor; auto. now rewrite Ex.
Qed.

Lemma Forall2_exists_fuel {A} (P : nat -> A -> list event -> Prop) l ess :
  (forall n n' x e, n <= n' -> P n x e -> P n' x e) ->
  Forall2 (fun x e => exists n, P n x e) l ess -> exists n, Forall2 (P n) l ess.
Proof.
  intros Mono H. induction H as [|x e l ess (n & Hn) H (m & IH)].
  - exists 0. constructor.
  - exists (n + m). constructor.
    + eapply Mono; [|eassumption]. lia.
    + eapply Forall2_impl; [|eassumption]. intros. eapply Mono; [|eassumption]. lia.
Qed.

(** The main characterisation. *)
Lemma layer_draws_inactive E c set ly idx tf alpha frame es :
  ~ active ly frame -> (layer_draws E c set ly idx tf alpha frame es <-> es = []).
Proof.
  intros Hn. assert (in_window ly frame = false).
  { rewrite active_in_window in Hn. now destruct (in_window ly frame). }
  split.
  - intros (fuel & H1 & <-). destruct fuel; [discriminate|]. simpl. now rewrite H.
  - intros ->. exists 1. simpl. rewrite H. auto.
Qed.

Lemma good_matte E fuel c set ly ptf alpha0 frame :
  good (match ly_mask_layer ly with
        | Some (mode, mask_index) =>
            emit (EvPushLayer (blend_of_mix MixNormal) f32_one ptf (full_rect c)) ;;
            (match nth_error set mask_index with
             | Some m => render_layer E fuel c set m 0 ptf alpha0 frame
             | None => ret tt
             end) ;;
            emit (EvPushLayer mode f32_one ptf (full_rect c))
        | None => ret tt
        end).
Proof.
  destruct (ly_mask_layer ly) as [[mode mi]|]; [|apply good_ret].
  apply good_bind; [apply good_emit|]. apply good_bind; [|apply good_emit].
  destruct (nth_error set mi); [apply good_render_layer|apply good_ret].
Qed.

Lemma layer_draws_active E c set ly idx ptf alpha0 frame es :
  active ly frame ->
  (layer_draws E c set ly idx ptf alpha0 frame es <->
   exists matte clips inner,
     matte_draws E c set ly ptf alpha0 frame matte /\
     mask_clips E (compute_transform E set ly ptf frame) frame (ly_masks ly) clips /\
     content_draws E c ly (compute_transform E set ly ptf frame)
       (fdiv (fmul alpha0 (eval E (ly_opacity ly) frame)) f100) frame inner /\
     es = EvBegin (ly_name ly) idx :: matte ++ clips ++ inner
          ++ repeat EvPop (List.length (ly_masks ly) +
                           match ly_mask_layer ly with Some _ => 2 | None => 0 end) ++ [EvEnd]).
Proof.
  intros Ha. apply active_in_window in Ha.
  set (tf := compute_transform E set ly ptf frame).
  set (al := fdiv (fmul alpha0 (eval E (ly_opacity ly) frame)) f100).
  split.
  - intros (fuel & H). destruct fuel as [|fuel]; [destruct H; discriminate|].
    change (emits_ok (render_layer E (S fuel) c set ly idx ptf alpha0 frame) es) in H.
    cbn [render_layer] in H. rewrite Ha in H. cbn [negb] in H. fold tf al in H.
    apply emits_ok_bind in H as (e1 & r1 & H1 & H & ->); [|apply good_emit].
    apply emits_ok_emit in H1 as ->.
    apply emits_ok_bind in H as (matte & r2 & Hm & H & ->); [|apply good_matte].
    apply emits_ok_bind in H as (clips & r3 & Hc & H & ->); [|apply good_forM; intros; apply good_mask_clip].
    apply emits_ok_bind in H as (inner & r4 & Hi & H & ->).
    2: { destruct (ly_content ly); [apply good_ret| |apply good_content].
         destruct (find_asset c name); [|apply good_ret].
         apply good_forM. intros x _. destruct (ly_is_mask x); [apply good_ret|apply good_render_layer]. }
    apply emits_ok_bind in H as (pops & r5 & Hp & H & ->); [|apply good_emits].
    apply emits_ok_emits in Hp as ->. apply emits_ok_emit in H as ->.
    exists matte, clips, inner. repeat split.
    + unfold matte_draws. destruct (ly_mask_layer ly) as [[mode k]|]; [|now apply emits_ok_ret in Hm].
      apply emits_ok_bind in Hm as (e1 & s1 & H1 & Hm & ->); [|apply good_emit].
      apply emits_ok_emit in H1 as ->.
      apply emits_ok_bind in Hm as (m & s2 & Hm & H2 & ->);
        [|destruct (nth_error set k); [apply good_render_layer|apply good_ret]].
      apply emits_ok_emit in H2 as ->. exists m. split; [|reflexivity].
      destruct (nth_error set k); [|now apply emits_ok_ret in Hm]. exists fuel. exact Hm.
    + now apply emits_ok_masks in Hc.
    + unfold content_draws. destruct (ly_content ly) as [|name remap|shapes].
      * now apply emits_ok_ret in Hi.
      * destruct (find_asset c name); [|now apply emits_ok_ret in Hi].
        apply forM_visible in Hi as (ess & Hess & ->); [|intros; apply good_render_layer].
        exists ess. split; [|reflexivity]. eapply Forall2_impl; [|exact Hess].
        intros x e Hx. exists fuel. exact Hx.
      * now apply emits_ok_content in Hi.
  - intros (matte & clips & inner & Hm & Hc & Hi & ->).
    assert (exists fm, forall f, fm <= f -> emits_ok (match ly_mask_layer ly with
        | Some (mode, mask_index) =>
            emit (EvPushLayer (blend_of_mix MixNormal) f32_one ptf (full_rect c)) ;;
            (match nth_error set mask_index with
             | Some m => render_layer E f c set m 0 ptf alpha0 frame
             | None => ret tt
             end) ;;
            emit (EvPushLayer mode f32_one ptf (full_rect c))
        | None => ret tt
        end) matte) as (fm & Hfm).
    { unfold matte_draws in Hm. destruct (ly_mask_layer ly) as [[mode k]|].
      - destruct Hm as (m & Hm & ->).
        assert (exists fm, forall f, fm <= f -> emits_ok (match nth_error set k with
             | Some m => render_layer E f c set m 0 ptf alpha0 frame
             | None => ret tt
             end) m) as (fm & Hfm).
        { destruct (nth_error set k).
          - destruct Hm as (fm & Hm). exists fm. intros f Hf. eapply emits_ok_mono; eauto.
          - exists 0. intros. now apply emits_ok_ret. }
        exists fm. intros f Hf. apply emits_ok_bind; [apply good_emit|].
        eexists _, _. split; [now apply emits_ok_emit|]. split; [|reflexivity].
        apply emits_ok_bind; [destruct (nth_error set k); [apply good_render_layer|apply good_ret]|].
        eexists _, _. split; [now apply Hfm|]. split; [now apply emits_ok_emit|]. reflexivity.
      - exists 0. intros. now apply emits_ok_ret. }
    assert (exists fi, forall f, fi <= f -> emits_ok (match ly_content ly with
       | CNone => ret tt
       | CInstance name _ =>
           match find_asset c name with
           | Some asset_layers =>
               let frame' := fadd (fdiv frame (ly_stretch ly))
                                  (fdiv (fneg (ly_start_frame ly)) (ly_stretch ly)) in
               forM (rev asset_layers) (fun al0 =>
                 if ly_is_mask al0 then ret tt
                 else render_layer E f c asset_layers al0 0 tf al frame')
           | None => ret tt
           end
       | CShape shapes => render_content_shapes E shapes tf al frame
       end) inner) as (fi & Hfi).
    { unfold content_draws in Hi. destruct (ly_content ly) as [|name remap|shapes].
      - exists 0. intros. now apply emits_ok_ret.
      - destruct (find_asset c name) as [ls|].
        + destruct Hi as (ess & Hess & ->). apply Forall2_exists_fuel in Hess as (fi & Hess).
          2: { intros n n' x e Hn Hx. eapply emits_ok_mono; eauto. }
          exists fi. intros f Hf. apply forM_visible; [intros; apply good_render_layer|].
          exists ess. split; [|reflexivity]. eapply Forall2_impl; [|exact Hess].
          intros x e Hx. eapply emits_ok_mono; eauto.
        + exists 0. intros. now apply emits_ok_ret.
      - exists 0. intros. apply emits_ok_content. exact Hi. }
    exists (S (fm + fi)). change (emits_ok (render_layer E (S (fm + fi)) c set ly idx ptf alpha0 frame)
      (EvBegin (ly_name ly) idx :: matte ++ clips ++ inner
          ++ repeat EvPop (List.length (ly_masks ly) +
                           match ly_mask_layer ly with Some _ => 2 | None => 0 end) ++ [EvEnd])).
    cbn [render_layer]. rewrite Ha. cbn [negb]. fold tf al.
    apply emits_ok_bind; [apply good_emit|]. eexists _, _. split; [now apply emits_ok_emit|].
    split; [|reflexivity].
    apply emits_ok_bind; [apply good_matte|]. eexists _, _. split; [apply Hfm; lia|]. split; [|reflexivity].
    apply emits_ok_bind; [apply good_forM; intros; apply good_mask_clip|].
    eexists _, _. split; [apply emits_ok_masks; exact Hc|]. split; [|reflexivity].
    apply emits_ok_bind.
    { destruct (ly_content ly); [apply good_ret| |apply good_content].
      destruct (find_asset c name); [|apply good_ret].
      apply good_forM. intros x _. destruct (ly_is_mask x); [apply good_ret|apply good_render_layer]. }
    eexists _, _. split; [apply Hfi; lia|]. split; [|reflexivity].
    apply emits_ok_bind; [apply good_emits|]. eexists _, _. split; [now apply emits_ok_emits|].
    split; [now apply emits_ok_emit|reflexivity].
Qed.

Lemma append_draws_iff E c frame tf alpha r es :
  rn_mask r = [] ->
  (append_draws E c frame tf alpha r es <->
   exists ess,
     Forall2 (fun p e => layer_draws E c (co_layers c) (snd p) (fst p) tf alpha frame e)
             (visible (fun p => ly_is_mask (snd p)) (rev (enumerate (co_layers c)))) ess /\
     es = EvPushClip tf (full_rect c) :: List.concat ess ++ [EvPop]).
Proof.
  intros Hr. unfold append_draws. setoid_rewrite (append_clean _ _ _ _ _ _ r Hr).
  assert (Eq : forall fuel, append_body E fuel c frame tf alpha =
     forM (rev (enumerate (co_layers c))) (fun '(i, ly) =>
       if ly_is_mask ly then ret tt
       else render_layer E fuel c (co_layers c) ly i tf alpha frame)) by reflexivity.
  assert (Hbody : forall fuel body, emits_ok (append_body E fuel c frame tf alpha) body <->
     exists ess, Forall2 (fun p e => emits_ok (render_layer E fuel c (co_layers c) (snd p) (fst p) tf alpha frame) e)
             (visible (fun p => ly_is_mask (snd p)) (rev (enumerate (co_layers c)))) ess /\ body = List.concat ess).
  { intros fuel body.
    rewrite <- (forM_visible (fun p : nat * layer => ly_is_mask (snd p))
       (rev (enumerate (co_layers c)))
       (fun p => render_layer E fuel c (co_layers c) (snd p) (fst p) tf alpha frame)) by
       (intros; apply good_render_layer).
    unfold append_body. rewrite !emits_ok_forM.
    2: { intros x _. destruct (ly_is_mask (snd x)); [apply good_ret|apply good_render_layer]. }
    2: { intros [i ly] _. destruct (ly_is_mask ly); [apply good_ret|apply good_render_layer]. }
    split; intros (ess & H & ->); exists ess; (split; [|reflexivity]);
      (eapply Forall2_impl; [|exact H]); intros [i ly] e He; exact He. }
  split.
  - intros (fuel & H).
    change (emits_ok (append_m E fuel c frame tf alpha) es) in H. unfold append_m in H.
    apply emits_ok_bind in H as (a & b & Ha & H & ->); [|apply good_emit].
    apply emits_ok_emit in Ha as ->.
    apply emits_ok_bind in H as (body & b' & Hb & H & ->); [|apply good_append_body].
    apply emits_ok_emit in H as ->. apply Hbody in Hb as (ess & Hess & ->).
    exists ess. split; [|reflexivity]. eapply Forall2_impl; [|exact Hess].
    intros p e He. exists fuel. exact He.
  - intros (ess & Hess & ->). apply Forall2_exists_fuel in Hess as (fuel & Hess).
    2: { intros n n' x e Hn Hx. eapply emits_ok_mono; eauto. }
    exists fuel. change (emits_ok (append_m E fuel c frame tf alpha) (EvPushClip tf (full_rect c) :: List.concat ess ++ [EvPop])).
    unfold append_m.
    apply emits_ok_bind; [apply good_emit|]. eexists _, _. split; [now apply emits_ok_emit|].
    split; [|reflexivity].
    apply emits_ok_bind; [apply good_append_body|]. eexists _, _. split; [apply Hbody; eauto|].
    split; [now apply emits_ok_emit|reflexivity].
Qed.
