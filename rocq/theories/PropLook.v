(** C97: every frame of every document is painted as the rules of FrameSpec.v
    say, without the condition that the outlines of different groups do not
    meet (compare C67, C68). *)
From Coq Require Import ZArith Bool List Arith String Lia Reals.
From Flocq Require Import IEEE754.BinarySingleNaN Core.Raux.
From Verif Require Import PropMerge F64 F64Facts Kurbo Value Animated Batch Render RenderSpec RenderFacts RenderFacts2 RenderFacts3
  BatchSpec BatchFacts BatchRefine BatchFacts2 FrameSpec LookSpec Examples PropRender PropBatch PropFrame ValueSpec
  Schema Import ImportSpec ImportFacts ImportFacts3 ImportFacts4 DocExamples PropImport PropDocument.
Import ListNotations.
Close Scope string_scope.
Close Scope R_scope.
Open Scope list_scope.
Open Scope nat_scope.

(** ** Specification *)
(** The calls [ps] show the draws of a layer, each with the geometry C92 says
    it paints; the draw first in the document is on top. *)
Definition painted (E : Ext) (tf : affine) (alpha frame : f64) (shs : list shape) (ps : list paint) : Prop :=
  exists calls, ps = List.concat (rev calls) /\ Forall2 (paints_marks E) (layer_kept E frame tf alpha shs) calls.
(** What is known about a shape layer: without trims and repeaters the calls
    show its draws; without a clash they are those of the picture its shapes denote. *)
Definition shows (E : Ext) (tf : affine) (alpha frame : f64) (shs : list shape) (ps : list paint) : Prop :=
  (Forall plain shs -> painted E tf alpha frame shs ps) /\
  (no_clash E frame tf shs -> exists p, shapes_pic E tf alpha frame shs = Ok p /\ ps = pic_paints E p).

(** The ink of a frame: each piece of outline with the pen and brush it is
    painted with, between the other calls of the frame. *)
Inductive ink := Piece (s : option stroke) (b : brush) (e : path_el) (t : affine) | Mark (e : Render.event).
Definition inks_of (e : Render.event) : list ink :=
  match e with
  | Render.EvDraw p => map (fun x => Piece (pt_stroke p) (pt_brush p) x (pt_transform p)) (pt_path p)
  | e => [Mark e]
  end.
Definition inks (es : list Render.event) : list ink := flat_map inks_of es.
(** The same ink, up to places that are equal numbers. *)
Definition same_ink (a b : ink) : Prop :=
  match a, b with
  | Piece s1 b1 e1 t1, Piece s2 b2 e2 t2 => s1 = s2 /\ b1 = b2 /\ e1 = e2 /\ same_place t1 t2
  | Mark e1, Mark e2 => e1 = e2
  | _, _ => False
  end.
Definition look_alike (es es' : list Render.event) : Prop := Forall2 same_ink (inks es) (inks es').
(** Every shape layer is without trims and repeaters, or without clashes. *)
Definition described (E : Ext) (c : composition) : Prop :=
  forall p ly shs, layer_at c p = Some ly -> ly_content ly = CShape shs ->
    Forall plain shs \/ forall frame tf, no_clash E frame tf shs.

(** ** The rules, with the painting left open *)
Scheme llayer_mind := Induction for look_layer Sort Prop
with lmatte_mind := Induction for look_matte Sort Prop
with lcontent_mind := Induction for look_content Sort Prop
with llayers_mind := Induction for look_layers Sort Prop.
Combined Scheme look_mind from llayer_mind, lmatte_mind, lcontent_mind, llayers_mind.

Section Rules.
  Variable E : Ext.
  Variable c : composition.
  Variable look : affine -> f64 -> f64 -> list shape -> list paint -> Prop.

  Section Calls.
  Hypothesis Looks : forall s ly shs tf alpha frame ps, In ly (scope_layers c s) -> ly_content ly = CShape shs ->
    layer_paints E tf alpha frame shs = Ok ps -> look tf alpha frame shs ps.
  (** Calls to rules, by the number of calls. *)
  Lemma draws_look : forall n s ly idx outer alpha frame es, List.length es <= n ->
    In ly (scope_layers c s) -> layer_draws E c (scope_layers c s) ly idx outer alpha frame es ->
    look_layer E c look (scope_layers c s) ly idx outer alpha frame es.
  Proof.
    induction n as [n IH] using lt_wf_ind. intros s ly idx outer alpha frame es Hn Hin D.
    destruct (in_window ly frame) eqn:W.
    2:{ assert (Na : ~ active ly frame) by (rewrite active_in_window; congruence).
        apply layer_draws_inactive in D; [|exact Na]. subst es. now constructor. }
    apply active_in_window in W. apply layer_draws_active in D; [|exact W].
    destruct D as (matte & clips & inner & Dm & (paths & Fp & ->) & Di & ->).
    assert (Lb : List.length matte + List.length inner < n).
    { cbn [List.length] in Hn. rewrite !app_length in Hn. lia. }
    replace (match ly_mask_layer ly with Some _ => 2 | None => 0 end) with
            (if (match ly_mask_layer ly with Some _ => true | None => false end) then 2 else 0)
      by (destruct (ly_mask_layer ly); reflexivity).
    rewrite (pops _ paths) by (now apply Forall2_len in Fp).
    replace (if (match ly_mask_layer ly with Some _ => true | None => false end) then [EvPop; EvPop] else [])
      with (if ly_mask_layer ly then [EvPop; EvPop] else []) by (destruct (ly_mask_layer ly); reflexivity).
    rewrite <- !app_assoc.
    apply (ll_present E c look (scope_layers c s) ly idx outer alpha frame _ matte paths inner W).
    - now apply placement_compute.
    - unfold matte_draws in Dm. destruct (ly_mask_layer ly) as [[mode k]|] eqn:Em.
      + destruct Dm as (m & Dm & ->). destruct (nth_error (scope_layers c s) k) as [mly|] eqn:N.
        * apply (lm_some E c look _ _ _ _ _ mode k mly m Em N).
          apply (IH (List.length m)); [|lia|eapply nth_error_In; eauto|exact Dm].
          cbn [List.length] in Lb. rewrite app_length in Lb. lia.
        * subst m. apply (lm_dangling E c look _ _ _ _ _ mode k Em N).
      + subst matte. now apply lm_none.
    - exact Fp.
    - unfold content_draws in Di. destruct (ly_content ly) as [|name remap|shs] eqn:Ct.
      + subst inner. constructor.
      + destruct (find_asset c name) as [ls|] eqn:Fa.
        * destruct Di as (ess & F & ->). apply (lc_instance E c look name remap ls); [exact Fa|].
          rewrite shown_map.
          assert (Lc : forall e, In e ess -> List.length e < n).
          { intros e He. pose proof (concat_bound _ _ He). lia. }
          assert (Hs : forall x, In x (visible ly_is_mask (rev ls)) -> In x (scope_layers c (Some name))).
          { intros x Hx. unfold visible in Hx. apply filter_In in Hx. destruct Hx as [Hx _].
            cbn [scope_layers]. rewrite Fa. now apply in_rev. }
          assert (Sc : scope_layers c (Some name) = ls) by (cbn [scope_layers]; now rewrite Fa).
          clear Lb Hn. revert Lc Hs. induction F as [|x e l ess Hx F IHF]; intros Lc Hs; cbn [map List.concat]; [constructor|].
          constructor.
          -- rewrite <- Sc. apply (IH (List.length e)); [apply Lc; now left|lia|apply Hs; now left|].
             rewrite Sc. exact Hx.
          -- apply IHF; [intros e' He; apply Lc; now right|intros y Hy; apply Hs; now right].
        * subst inner. now constructor.
      + destruct Di as (b & ps & R & B & ->). constructor. apply (Looks s ly); auto.
        unfold layer_paints, dimmed. now rewrite R.
  Qed.
  Lemma append_look frame tf alpha r es : rn_mask r = [] ->
    append_draws E c frame tf alpha r es -> look_picture E c look frame tf alpha es.
  Proof.
    intros Hr D. apply append_draws_iff in D; [|exact Hr]. destruct D as (ess & F & ->).
    exists (List.concat ess). split; [|reflexivity].
    assert (G := enumerated_in c). unfold shown. unfold shown in G. unfold visible, enumerate in F.
    revert F G. generalize (filter (fun p : nat * layer => negb (ly_is_mask (snd p))) (rev (combine (seq 0 (List.length (co_layers c))) (co_layers c)))).
    induction 1 as [|[i x] e l ess' Hx F IH]; intros G; cbn [List.concat]; [constructor|]. inversion G; subst.
    constructor; [|now apply IH]. apply (draws_look (List.length e) None); auto.
  Qed.
  End Calls.

  (** Rules to calls. *)
  Section Back.
  Hypothesis Looks : forall s ly shs tf alpha frame ps, In ly (scope_layers c s) -> ly_content ly = CShape shs ->
    look tf alpha frame shs ps -> layer_paints E tf alpha frame shs = Ok ps.
  Lemma look_draws :
    (forall set ly idx outer alpha frame es, look_layer E c look set ly idx outer alpha frame es ->
       forall s, set = scope_layers c s -> In ly set -> layer_draws E c set ly idx outer alpha frame es) /\
    (forall set ly outer alpha frame es, look_matte E c look set ly outer alpha frame es ->
       forall s, set = scope_layers c s -> matte_draws E c set ly outer alpha frame es) /\
    (forall ct tf alpha frame inner_frame es, look_content E c look ct tf alpha frame inner_frame es ->
       forall s ly, In ly (scope_layers c s) -> ly_content ly = ct -> inner_frame = inner_time ly frame ->
       content_draws E c ly tf alpha frame es) /\
    (forall set l tf alpha frame es, look_layers E c look set l tf alpha frame es ->
       forall s, set = scope_layers c s -> Forall (fun p => In (snd p) set) l ->
       exists ess, Forall2 (fun p e => layer_draws E c set (snd p) (fst p) tf alpha frame e) l ess /\ es = List.concat ess).
  Proof.
    apply (look_mind E c look
      (fun set ly idx outer alpha frame es _ =>
         forall s, set = scope_layers c s -> In ly set -> layer_draws E c set ly idx outer alpha frame es)
      (fun set ly outer alpha frame es _ =>
         forall s, set = scope_layers c s -> matte_draws E c set ly outer alpha frame es)
      (fun ct tf alpha frame inner_frame es _ =>
         forall s ly, In ly (scope_layers c s) -> ly_content ly = ct -> inner_frame = inner_time ly frame ->
         content_draws E c ly tf alpha frame es)
      (fun set l tf alpha frame es _ =>
         forall s, set = scope_layers c s -> Forall (fun p => In (snd p) set) l ->
         exists ess, Forall2 (fun p e => layer_draws E c set (snd p) (fst p) tf alpha frame e) l ess /\ es = List.concat ess)).
    - intros set ly idx outer alpha frame Na s Hs Hin. now apply layer_draws_inactive.
    - intros set ly idx outer alpha frame tf matte paths inner Ha Hp Hm IHm Fp Hc IHc s Hs Hin.
      apply placement_compute in Hp. subst tf. apply layer_draws_active; [exact Ha|].
      exists matte, (map (fun p => EvPushClip (compute_transform E set ly outer frame) (SkPath p)) paths), inner.
      split; [eapply IHm; eauto|]. split; [exists paths; auto|]. split.
      + apply (IHc s ly); auto. now rewrite <- Hs.
      + cbn [app]. f_equal. f_equal. f_equal. f_equal.
        replace (match ly_mask_layer ly with Some _ => 2 | None => 0 end) with
            (if (match ly_mask_layer ly with Some _ => true | None => false end) then 2 else 0)
          by (destruct (ly_mask_layer ly); reflexivity).
        rewrite (pops _ paths) by (now apply Forall2_len in Fp).
        destruct (ly_mask_layer ly); now rewrite <- app_assoc.
    - intros set ly outer alpha frame Em s Hs. unfold matte_draws. now rewrite Em.
    - intros set ly outer alpha frame mode k m es Em N Hl IHl s Hs. unfold matte_draws. rewrite Em, N. exists es.
      split; [|reflexivity]. apply (IHl s); auto. eapply nth_error_In; eauto.
    - intros set ly outer alpha frame mode k Em N s Hs. unfold matte_draws. rewrite Em, N. exists []. auto.
    - intros tf alpha frame inner_frame s ly Hin Ct Hi. unfold content_draws. now rewrite Ct.
    - intros shs tf alpha frame inner_frame ps P s ly Hin Ct Hi. unfold content_draws. rewrite Ct.
      apply (Looks s ly) in P; auto. unfold layer_paints in P.
      destruct (render_shapes E shs tf alpha frame batch_empty) as [b| |]; try discriminate. exists b, ps. auto.
    - intros name remap tf alpha frame inner_frame Fa s ly Hin Ct Hi. unfold content_draws. now rewrite Ct, Fa.
    - intros name remap ls tf alpha frame inner_frame es Fa Hl IHl s ly Hin Ct Hi. unfold content_draws. rewrite Ct, Fa.
      destruct (IHl (Some name)) as (ess & F & ->).
      + cbn [scope_layers]. now rewrite Fa.
      + rewrite shown_map. apply Forall_map. apply Forall_forall. intros x Hx. cbn [snd].
        unfold visible in Hx. apply filter_In in Hx. destruct Hx as [Hx _]. now apply in_rev.
      + exists ess. split; [|reflexivity]. rewrite shown_map in F. rewrite Hi in F. unfold inner_time in F.
        clear - F. revert F. generalize (visible ly_is_mask (rev ls)). intros l.
        revert ess. induction l as [|x l IH]; intros ess F; cbn [map] in F; inversion F; subst; constructor; auto.
    - intros set tf alpha frame s Hs Hl. exists []. auto.
    - intros set i ly l tf alpha frame es es' Hl IHl Hls IHls s Hs F. inversion F; subst.
      destruct (IHls s eq_refl H2) as (ess & F' & ->). exists (es :: ess). split; [|reflexivity].
      constructor; [|exact F']. cbn [fst snd]. eapply IHl; eauto.
  Qed.
  Lemma look_append frame tf alpha r es : rn_mask r = [] ->
    look_picture E c look frame tf alpha es -> append_draws E c frame tf alpha r es.
  Proof.
    intros Hr (body & H & ->). apply append_draws_iff; [exact Hr|].
    destruct (proj2 (proj2 (proj2 look_draws)) _ _ _ _ _ _ H None eq_refl (enumerated_in c)) as (ess & F & ->).
    exists ess. split; [exact F|reflexivity].
  Qed.
  End Back.
End Rules.

(** ** Looking alike *)
Lemma feqb_sym x y : feqb x y = true -> feqb y x = true.
Proof.
  destruct x as [[]|[]| |s m e B], y as [[]|[]| |s' m' e' B']; try discriminate; try reflexivity; intros H;
    (apply feqb_eq; [reflexivity|reflexivity|symmetry; apply feqb_eq; [reflexivity|reflexivity|exact H]]).
Qed.
Lemma feqb_trans x y z : feqb x y = true -> feqb y z = true -> feqb x z = true.
Proof.
  intros H K. destruct (is_finite y) eqn:Fy.
  - assert (Fx : is_finite x = true) by (destruct x as [[]|[]| |[] m e B], y as [[]|[]| |[] m' e' B']; try discriminate; reflexivity).
    assert (Fz : is_finite z = true) by (destruct z as [[]|[]| |[] m e B], y as [[]|[]| |[] m' e' B']; try discriminate; reflexivity).
    apply feqb_eq; auto. apply feqb_eq in H; auto. apply feqb_eq in K; auto. congruence.
  - destruct y as [?|[]| |]; try discriminate; destruct x as [[]|[]| |[] ? ? ?]; try discriminate; destruct z as [[]|[]| |[] ? ? ?]; try discriminate; reflexivity.
Qed.
Lemma same_place_sym t u : same_place t u -> same_place u t.
Proof.
  intros [->|H]; [now left|]. right. unfold affine_eqb in *. rewrite !andb_true_iff in *. intuition auto using feqb_sym.
Qed.
Lemma same_place_trans t u v : same_place t u -> same_place u v -> same_place t v.
Proof.
  intros [->|H]; [easy|]. intros [<-|K]; [now right|]. right. unfold affine_eqb in *. rewrite !andb_true_iff in *.
  intuition eauto using feqb_trans.
Qed.
Lemma same_ink_refl a : same_ink a a.
Proof. destruct a; cbn; auto. repeat split; auto. now left. Qed.
Lemma alike_refl es : look_alike es es.
Proof. unfold look_alike. induction (inks es); constructor; auto using same_ink_refl. Qed.
Lemma alike_app a b a' b' : look_alike a a' -> look_alike b b' -> look_alike (a ++ b) (a' ++ b').
Proof. unfold look_alike, inks. rewrite !flat_map_app. apply Forall2_app. Qed.
Lemma alike_cons e a a' : look_alike a a' -> look_alike (e :: a) (e :: a').
Proof. apply (alike_app [e] a [e] a'). apply alike_refl. Qed.

Lemma paths_fun E frame ms : forall p q,
  Forall2 (fun m p => geometry_eval E (mk_geometry m) frame = Ok p) ms p ->
  Forall2 (fun m p => geometry_eval E (mk_geometry m) frame = Ok p) ms q -> p = q.
Proof.
  induction ms as [|m ms IH]; intros p q A B; inversion A; subst; inversion B; subst; [reflexivity|].
  f_equal; [congruence|]. now apply IH.
Qed.

Section Unique.
  Variable E : Ext.
  Variable c : composition.
  Variable look : affine -> f64 -> f64 -> list shape -> list paint -> Prop.
  Hypothesis Looks : forall s ly shs tf alpha frame ps ps', In ly (scope_layers c s) -> ly_content ly = CShape shs ->
    look tf alpha frame shs ps -> look tf alpha frame shs ps' -> look_alike (map Render.EvDraw ps) (map Render.EvDraw ps').
  Lemma look_fun :
    (forall set ly idx outer alpha frame es, look_layer E c look set ly idx outer alpha frame es ->
       forall s es', set = scope_layers c s -> In ly set -> look_layer E c look set ly idx outer alpha frame es' -> look_alike es es') /\
    (forall set ly outer alpha frame es, look_matte E c look set ly outer alpha frame es ->
       forall s es', set = scope_layers c s -> look_matte E c look set ly outer alpha frame es' -> look_alike es es') /\
    (forall ct tf alpha frame inner_frame es, look_content E c look ct tf alpha frame inner_frame es ->
       forall s ly es', In ly (scope_layers c s) -> ly_content ly = ct ->
         look_content E c look ct tf alpha frame inner_frame es' -> look_alike es es') /\
    (forall set l tf alpha frame es, look_layers E c look set l tf alpha frame es ->
       forall s es', set = scope_layers c s -> Forall (fun p => In (snd p) set) l ->
         look_layers E c look set l tf alpha frame es' -> look_alike es es').
  Proof.
    apply (look_mind E c look
      (fun set ly idx outer alpha frame es _ =>
         forall s es', set = scope_layers c s -> In ly set -> look_layer E c look set ly idx outer alpha frame es' -> look_alike es es')
      (fun set ly outer alpha frame es _ =>
         forall s es', set = scope_layers c s -> look_matte E c look set ly outer alpha frame es' -> look_alike es es')
      (fun ct tf alpha frame inner_frame es _ =>
         forall s ly es', In ly (scope_layers c s) -> ly_content ly = ct ->
           look_content E c look ct tf alpha frame inner_frame es' -> look_alike es es')
      (fun set l tf alpha frame es _ =>
         forall s es', set = scope_layers c s -> Forall (fun p => In (snd p) set) l ->
           look_layers E c look set l tf alpha frame es' -> look_alike es es')).
    - intros set ly idx outer alpha frame Na s es' Hs Hin H. inversion H; subst; [apply alike_refl|contradiction].
    - intros set ly idx outer alpha frame tf matte paths inner Ha Hp Hm IHm Fp Hc IHc s es' Hs Hin H.
      inversion H; subst; [contradiction|].
      apply placement_compute in Hp. match goal with P : placement _ _ _ _ _ _ |- _ => apply placement_compute in P; subst end.
      match goal with F : Forall2 _ (ly_masks ly) ?q |- look_alike _ ([_] ++ _ ++ map _ ?q ++ _) =>
        assert (paths = q) as -> by (eapply paths_fun; [exact Fp|exact F]) end.
      apply alike_cons. apply alike_app; [eapply IHm; eauto|]. apply alike_app; [apply alike_refl|].
      apply alike_app; [|apply alike_refl]. eapply IHc; eauto.
    - intros set ly outer alpha frame Em s es' Hs H. inversion H; subst; try congruence. apply alike_refl.
    - intros set ly outer alpha frame mode k m es Em N Hl IHl s es' Hs H. inversion H; subst; try congruence.
      match goal with X : ly_mask_layer ly = Some (?mo, ?kk), Y : nth_error _ ?kk = Some ?mm |- _ => assert (mode = mo /\ m = mm) as [-> ->] by (split; congruence) end.
      apply alike_cons. apply alike_app; [|apply alike_refl]. eapply IHl; eauto. eapply nth_error_In; eauto.
    - intros set ly outer alpha frame mode k Em N s es' Hs H. inversion H; subst; try congruence.
      match goal with X : ly_mask_layer ly = Some (?mo, ?kk), Y : nth_error _ ?kk = None |- _ => assert (mode = mo) as -> by congruence end. apply alike_refl.
    - intros tf alpha frame inner_frame s ly es' Hin Ct H. inversion H; subst. apply alike_refl.
    - intros shs tf alpha frame inner_frame ps P s ly es' Hin Ct H. inversion H; subst. eapply Looks; eauto.
    - intros name remap tf alpha frame inner_frame Fa s ly es' Hin Ct H. inversion H; subst; [apply alike_refl|congruence].
    - intros name remap ls tf alpha frame inner_frame es Fa Hl IHl s ly es' Hin Ct H. inversion H; subst; [congruence|].
      match goal with X : find_asset c name = Some ?l0 |- _ => assert (ls = l0) as -> by congruence end.
      eapply (IHl (Some name)); [cbn [scope_layers]; now rewrite Fa| |eassumption].
      rewrite shown_map. apply Forall_map. apply Forall_forall. intros x Hx. cbn [snd].
      unfold visible in Hx. apply filter_In in Hx. destruct Hx as [Hx _]. now apply in_rev.
    - intros set tf alpha frame s es' Hs Hl H. inversion H; subst. apply alike_refl.
    - intros set i ly l tf alpha frame es es' Hl IHl Hls IHls s es'' Hs F H. inversion F; subst. inversion H; subst.
      apply alike_app; [eapply IHl; eauto|eapply IHls; eauto].
  Qed.
  Lemma picture_fun frame tf alpha es es' :
    look_picture E c look frame tf alpha es -> look_picture E c look frame tf alpha es' -> look_alike es es'.
  Proof.
    intros (b & H & ->) (b' & H' & ->). apply alike_cons. apply alike_app; [|apply alike_refl].
    exact (proj2 (proj2 (proj2 look_fun)) _ _ _ _ _ _ H None _ eq_refl (enumerated_in c) H').
  Qed.
End Unique.

(** ** Shape layers *)
Lemma inks_style E s : forall ps, Forall (in_style E s) ps ->
  inks (map Render.EvDraw ps) =
  map (fun m => Piece (sy_stroke s) (style_brush E s) (fst m) (snd m)) (flat_map (fun p => place (pt_transform p) (pt_path p)) ps).
Proof.
  induction 1 as [|p ps [H1 H2] _ IH]; [reflexivity|]. unfold inks in *. cbn [map flat_map inks_of]. rewrite map_app, <- IH. f_equal.
  unfold place. rewrite map_map. cbn [fst snd]. now rewrite H1, H2.
Qed.
Lemma marks_alike E d ps ps' : paints_marks E d ps -> paints_marks E d ps' -> look_alike (map Render.EvDraw ps) (map Render.EvDraw ps').
Proof.
  intros [S M] [S' M']. unfold look_alike. rewrite (inks_style E _ _ S), (inks_style E _ _ S').
  revert M'. generalize (flat_map (fun p => place (pt_transform p) (pt_path p)) ps'). revert M.
  generalize (flat_map (fun p => place (pt_transform p) (pt_path p)) ps), (snd d). clear.
  induction 1 as [|m n l l' [A B] _ IH]; intros k K; inversion K as [|m' n' k' l'' [A' B'] K']; subst; cbn [map]; constructor.
  - cbn. repeat split; auto; [congruence|]. eapply same_place_trans; [exact B|]. now apply same_place_sym.
  - now apply IH.
Qed.
Lemma painted_alike E tf alpha frame shs ps ps' : painted E tf alpha frame shs ps -> painted E tf alpha frame shs ps' ->
  look_alike (map Render.EvDraw ps) (map Render.EvDraw ps').
Proof.
  intros (cs & -> & F) (cs' & -> & F'). revert cs' F'.
  induction F as [|d p l cs P _ IH]; intros cs' F'; inversion F' as [|d' p' l' cs2 P' F2]; subst; [apply alike_refl|].
  cbn [rev]. rewrite !concat_app, !map_app. apply alike_app; [now apply IH|]. cbn [List.concat]. rewrite !app_nil_r.
  eapply marks_alike; eauto.
Qed.
Lemma sound_shapes E c s ly shs : sound_comp E c -> In ly (scope_layers c s) -> ly_content ly = CShape shs ->
  Forall (all_geometry (sound_geometry E)) shs.
Proof.
  intros [S1 S2] Hin Ct. assert (Snd : sound_layer E ly).
  { destruct s as [n|]; cbn [scope_layers] in Hin.
    - unfold find_asset in Hin. destruct (find _ (co_assets c)) as [[k l]|] eqn:F; [|destruct Hin].
      apply find_some in F. destruct F as [F _]. rewrite Forall_forall in S2. specialize (S2 _ F). cbn in S2.
      rewrite Forall_forall in S2. now apply S2.
    - rewrite Forall_forall in S1. now apply S1. }
  destruct Snd as [_ Snd]. now rewrite Ct in Snd.
Qed.
Lemma layer_shows E tf alpha frame shs ps : Forall (all_geometry (sound_geometry E)) shs ->
  layer_paints E tf alpha frame shs = Ok ps -> shows E tf alpha frame shs ps.
Proof.
  intros S L. split.
  - intros P. destruct (C92_paints E tf alpha frame shs P S) as (calls & L' & F). exists calls. split; [congruence|exact F].
  - intros N. destruct (C14_refinement_partial E tf alpha frame shs S N) as (p & P & L'). exists p. split; [exact P|congruence].
Qed.

(** ** C97 *)
(** Any composition, any frame: a used renderer makes exactly the calls of the
    rules, each shape layer showing what it paints on its own. *)
Theorem C97_rules : forall E c frame tf alpha r es, used r ->
  (append_draws E c frame tf alpha r es <->
   look_picture E c (fun tf alpha frame shs ps => layer_paints E tf alpha frame shs = Ok ps) frame tf alpha es).
Proof.
  intros E c frame tf alpha r es U. assert (Hr : rn_mask r = []) by now rewrite (used_clean r U). split.
  - apply append_look; auto.
  - apply look_append; auto.
Qed.
(** With outlines that start with a move-to, each shape layer shows its draws
    with the geometry of C92, or the picture of its shapes. *)
Theorem C97_frame : forall E c frame tf alpha r es, sound_comp E c -> used r ->
  append_draws E c frame tf alpha r es -> look_picture E c (shows E) frame tf alpha es.
Proof.
  intros E c frame tf alpha r es S U. apply append_look; [|now rewrite (used_clean r U)].
  intros s ly shs tf' alpha' frame' ps Hin Ct L. apply layer_shows; [|exact L]. eapply sound_shapes; eauto.
Qed.
(** The rules leave open only how the outlines are distributed over the calls. *)
Theorem C97_unique : forall E c frame tf alpha es es', described E c ->
  look_picture E c (shows E) frame tf alpha es -> look_picture E c (shows E) frame tf alpha es' -> look_alike es es'.
Proof.
  intros E c frame tf alpha es es' D. apply picture_fun. intros s ly shs tf' alpha' frame' ps ps' Hin Ct [P Q] [P' Q'].
  apply In_nth_error in Hin as (i & Hi). destruct (D (s, i) ly shs Hi Ct) as [H|H].
  - eapply painted_alike; eauto.
  - destruct (Q (H frame' tf')) as (p & A & ->), (Q' (H frame' tf')) as (p' & A' & ->).
    assert (p = p') as -> by congruence. apply alike_refl.
Qed.

(** Documents: a layer has no trim at any depth. *)
Inductive no_trim : any_shape -> Prop :=
| nt_group ge np it cix : (forall x, In x it -> no_trim x) -> no_trim (AsGroup ge np it cix)
| nt_leaf x : match x with AsGroup _ _ _ _ | AsTrim _ _ _ _ _ => False | _ => True end -> no_trim x.
Definition clear_in (a : animation) : Prop :=
  forall s src, In src (source_layers a s) ->
    (forall x, In x (shapes_of src) -> no_trim x) \/ exists q, tidy Free (shapes_of src) q.
Lemma imported_plain E :
  (forall l out, imports E l out -> (forall x, In x l -> no_trim x) -> Forall plain out) /\
  (forall x s, becomes E x s -> no_trim x -> plain s).
Proof.
  apply (import_mind E (fun l out _ => (forall x, In x l -> no_trim x) -> Forall plain out) (fun x s _ => no_trim x -> plain s));
    try (intros; exact I).
  - constructor.
  - intros x l out _ _ IH H. apply IH. intros y Hy. apply H. now right.
  - intros x s l out _ _ IHx _ IH H. constructor; [apply IHx, H; now left|apply IH; intros y Hy; apply H; now right].
  - intros ge np it cix shapes t gt _ IH _ _ H. inversion H as [? ? ? ? G|? G]; subst; [|contradiction].
    specialize (IH G). cbn [plain]. induction IH; auto.
  - intros m s e o mm t vs ve vo _ _ _ _ H. inversion H; contradiction.
Qed.
Lemma clear_described E a c : conv_animation E a = Ok c -> clear_in a -> described E c.
Proof.
  intros H T [s i] ly shs Hl Hc. unfold layer_at in Hl. cbn [fst snd] in Hl.
  destruct (layer_shapes E a c H s i ly shs Hl Hc) as (src & Hs & R). destruct (T s src Hs) as [N|(q & Tq)].
  - left. exact (proj1 (imported_plain E) _ _ R N).
  - right. intros frame tf. destruct (proj1 (imported_keeps E frame) _ _ R _ _ Tq tf None eq_refl) as (s' & A & _).
    unfold no_clash. rewrite A. discriminate.
Qed.
(** Every frame of a supported document without self-references and with stars
    of bounded size is painted as the rules say; if each layer is tidy or has no
    trims, they say what is seen. *)
Theorem C97_document : forall E a, kurbo_paths E -> animation_supported a -> no_self_reference a -> stars_fit_in a ->
  exists c, conv_animation E a = Ok c /\
    forall frame tf alpha r, used r ->
      exists es, append_draws E c frame tf alpha r es /\ look_picture E c (shows E) frame tf alpha es /\
        (clear_in a -> forall es', look_picture E c (shows E) frame tf alpha es' -> look_alike es' es).
Proof.
  intros E a K S N F. destruct (C68_never_crashes E a K S N F) as (c & H & R). exists c. split; [exact H|].
  intros frame tf alpha r U. destruct (R frame tf alpha r U) as (es & D). exists es. split; [exact D|].
  assert (P : look_picture E c (shows E) frame tf alpha es).
  { eapply C97_frame; eauto. eapply document_sound; eauto. }
  split; [exact P|]. intros Cl es' P'. eapply C97_unique; eauto. eapply clear_described; eauto.
Qed.
(** A document with a clash in one layer and a trim in another. *)
Definition doc_mixed : animation :=
  doc [] [AlShape (visual (base "a" (Some 1) None None) (tr_pos 0 0) None None None)
            [rect_at 1 1; group_of [rect_at 2 2; fill_in no_ge; tr_shape 0 0]; fill_in no_ge];
          AlShape (visual (base "b" (Some 2) None None) (tr_pos 0 0) None None None)
            [wedge; half; fill_in no_ge]].
Example C97_applies : kurbo_paths E0 /\ animation_supported doc_mixed /\ no_self_reference doc_mixed /\
  stars_fit_in doc_mixed /\ clear_in doc_mixed /\ ~ tidy_in doc_mixed.
Proof.
  split; [split; reflexivity|].
  split; [apply (proj1 (C38_supported E0 doc_mixed)); apply is_ok_ex; vm_compute; reflexivity|].
  split; [|split; [|split]].
  - apply (ranked _ (fun s => match s with None => 1 | Some _ => 0 end)).
    + intros [n|] src; unfold source_layers; cbn [assets_of doc_mixed doc ani_assets ani_layers].
      * intros [].
      * intros [<-|[<-|[]]]; reflexivity.
    + intros [n|] vl name w h st tm; unfold source_layers; cbn [assets_of doc_mixed doc ani_assets ani_layers].
      * intros [].
      * intros [X|[X|[]]]; discriminate.
  - intros [n|] src x; unfold source_layers; cbn [assets_of doc_mixed doc ani_assets ani_layers].
    + intros [].
    + intros [<-|[<-|[]]]; cbn [shapes_of].
      * intros [<-|[<-|[<-|[]]]]; try now constructor. apply sf_group. intros y [<-|[<-|[<-|[]]]]; now constructor.
      * intros [<-|[<-|[<-|[]]]]; now constructor.
  - intros [n|] src; unfold source_layers; cbn [assets_of doc_mixed doc ani_assets ani_layers].
    + intros [].
    + intros [<-|[<-|[]]]; cbn [shapes_of].
      * left. intros x [<-|[<-|[<-|[]]]]; try now constructor. apply nt_group. intros y [<-|[<-|[<-|[]]]]; now constructor.
      * right. exists Free. apply td_geometry; [exact I|discriminate|]. apply td_trim. apply td_style; [exact I|]. constructor.
  - intros T. destruct (T None _ (or_introl eq_refl)) as (q & Q). cbn [shapes_of] in Q.
    inversion Q as [|? ? ? ? ? ? Q1| | | |]; subst; try contradiction. inversion Q1; subst; contradiction.
Qed.
