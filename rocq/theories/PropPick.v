(** C70: hit-testing by layer, built on the sink's group calls. *)
From Coq Require Import ZArith Bool List Arith String Lia Sorted Reals Lra.
From Flocq Require Import Core BinarySingleNaN.
From Verif Require Import F64 F64Facts Kurbo Value Animated Batch Render RenderSpec RenderFacts RenderFacts2 RenderFacts3 ImportFacts Examples PropRender Picking PickSpec.
Import ListNotations.
Open Scope list_scope.
Open Scope nat_scope.

(** ** Bounding boxes *)
Lemma fmin_pick x y : fmin x y = x \/ fmin x y = y.
Proof. unfold fmin. destruct (is_nan x), (is_nan y), (fltb y x); auto. Qed.
Lemma fmax_pick x y : fmax x y = x \/ fmax x y = y.
Proof. unfold fmax. destruct (is_nan x), (is_nan y), (fltb x y); auto. Qed.
Lemma flt_le_trans x y z : fltb x y = true -> fleb y z = true -> fltb x z = true.
Proof.
  destruct x as [sx|sx| |sx mx ex Bx], y as [sy|sy| |sy my ey By], z as [sz|sz| |sz mz ez Bz]; try discriminate;
    try (destruct sx; try discriminate; reflexivity);
    try (destruct sx, sy; try discriminate; reflexivity);
    try (destruct sx, sz; try discriminate; reflexivity);
    try (destruct sx, sy, sz; try discriminate; reflexivity);
    intros H1 H2; apply fltb_lt in H1; try reflexivity; apply fleb_le in H2; try reflexivity;
    apply fltb_lt; try reflexivity; eapply Rlt_le_trans; eauto.
Qed.
Lemma fltb_leb x y : fltb x y = true -> fleb x y = true.
Proof.
  unfold fltb, fleb, Bltb, Bleb, SpecFloat.SFltb, SpecFloat.SFleb. destruct (SpecFloat.SFcompare _ _) as [[]|]; congruence.
Qed.
Lemma nltb_leb x y : is_nan x = false -> is_nan y = false -> fltb x y = false -> fleb y x = true.
Proof.
  intros N N' L.
  assert (C : exists c, SpecFloat.SFcompare (B2SF x) (B2SF y) = Some c).
  { destruct x as [[]|[]| |[] ? ? ?], y as [[]|[]| |[] ? ? ?]; try discriminate; cbn; eauto. }
  destruct C as [c C].
  unfold fltb, fleb, Bltb, Bleb, SpecFloat.SFltb, SpecFloat.SFleb in *. rewrite fcmp_antisym.
  rewrite C in *. destruct c; cbn; congruence.
Qed.
Lemma min_below x y p : fleb x p = true -> fleb (fmin x y) p = true /\ fleb (fmin y x) p = true.
Proof.
  intros H. destruct (fleb_not_nan _ _ H) as [N _]. split; eapply fleb_trans_nn; [|exact H| |exact H].
  - now apply fmin_le_l.
  - destruct (is_nan y) eqn:N'; [|now apply fmin_le_r]. unfold fmin. rewrite N'. now apply fleb_refl_nn.
Qed.
Lemma max_above x y p : fltb p x = true -> fltb p (fmax x y) = true /\ fltb p (fmax y x) = true.
Proof.
  intros H. destruct (fltb_not_nan _ _ H) as [_ N]. split; (eapply flt_le_trans; [exact H|]); unfold fmax; rewrite N.
  - destruct (is_nan y); [now apply fleb_refl_nn|]. destruct (fltb x y) eqn:L; [now apply fltb_leb|now apply fleb_refl_nn].
  - destruct (is_nan y) eqn:N'; [now apply fleb_refl_nn|]. destruct (fltb y x) eqn:L; [now apply fleb_refl_nn|now apply nltb_leb].
Qed.
Lemma union_covers a b p : rect_contains a p = true \/ rect_contains b p = true -> rect_contains (rect_union a b) p = true.
Proof.
  unfold rect_contains, rect_union. cbn [rx0 ry0 rx1 ry1].
  intros [H|H]; rewrite !andb_true_iff in *; destruct H as [[[H1 H2] H3] H4].
  - apply min_below with (y := rx0 b) in H1 as [H1 _]. apply max_above with (y := rx1 b) in H2 as [H2 _].
    apply min_below with (y := ry0 b) in H3 as [H3 _]. apply max_above with (y := ry1 b) in H4 as [H4 _]. auto.
  - apply min_below with (y := rx0 a) in H1 as [_ H1]. apply max_above with (y := rx1 a) in H2 as [_ H2].
    apply min_below with (y := ry0 a) in H3 as [_ H3]. apply max_above with (y := ry1 a) in H4 as [_ H4]. auto.
Qed.
Lemma bounds_one b : bounds [b] b.
Proof. split; [|eexists; split; [now left|reflexivity]..]. intros b' p [<-|[]] H. exact H. Qed.
Lemma bounds_union bs r b : bounds bs r -> bounds (bs ++ [b]) (rect_union r b).
Proof.
  intros [H1 H2 H3 H4 H5].
  assert (L : forall x, In x bs -> In x (bs ++ [b])) by (intros; apply in_or_app; auto).
  assert (R : In b (bs ++ [b])) by (apply in_or_app; right; now left).
  split.
  - intros b' p Hin Hp. apply union_covers. apply in_app_or in Hin as [Hin|[<-|[]]]; [left; eauto|now right].
  - destruct H2 as (x & Hx & Ex). cbn [rect_union rx0]. destruct (fmin_pick (rx0 r) (rx0 b)) as [->| ->]; [exists x|exists b]; auto.
  - destruct H3 as (x & Hx & Ex). cbn [rect_union ry0]. destruct (fmin_pick (ry0 r) (ry0 b)) as [->| ->]; [exists x|exists b]; auto.
  - destruct H4 as (x & Hx & Ex). cbn [rect_union rx1]. destruct (fmax_pick (rx1 r) (rx1 b)) as [->| ->]; [exists x|exists b]; auto.
  - destruct H5 as (x & Hx & Ex). cbn [rect_union ry1]. destruct (fmax_pick (ry1 r) (ry1 b)) as [->| ->]; [exists x|exists b]; auto.
Qed.

(** ** The tracker on a group *)
Section run.
  Variable bbox : list path_el -> rect.
  Definition box (p : paint) : rect := transform_rect_bbox (pt_transform p) (bbox (pt_path p)).
  Definition grow (o : option rect) (bs : list rect) : option rect :=
    fold_left (fun o b => Some (match o with Some r => rect_union r b | None => b end)) bs o.
  Lemma run_app t a b : tracker_run bbox t (a ++ b) = tracker_run bbox (tracker_run bbox t a) b.
  Proof. apply fold_left_app. Qed.
  Lemma draws_app a b : draws_of (a ++ b) = draws_of a ++ draws_of b.
  Proof. apply flat_map_app. Qed.
  Lemma grow_app o a b : grow o (a ++ b) = grow (grow o a) b.
  Proof. apply fold_left_app. Qed.
  (** Inside a layer of interest, a well-nested word only extends the box. *)
  Lemma run_inside : forall w, nested w -> forall I n o b k c col, exists c', c <= c' /\
    tracker_run bbox (mkTracker I (Some n) o b k c col) w =
    mkTracker I (Some n) o (grow b (map box (draws_of w))) k c' col.
  Proof.
    induction 1 as [|p es H IH|o' inner rest Ho H IH H' IH'|name i inner rest H IH H' IH']; intros I n o b k c col.
    - exists c. split; [lia|reflexivity].
    - destruct (IH I n o (Some (match b with Some r => rect_union r (box p) | None => box p end)) k c col) as (c' & L & E).
      exists c'. split; [exact L|]. exact E.
    - destruct (IH I n o b k c col) as (c1 & L1 & E1).
      destruct (IH' I n o (grow b (map box (draws_of inner))) k c1 col) as (c2 & L2 & E2). exists c2. split; [lia|].
      assert (D : draws_of (o' :: inner ++ EvPop :: rest) = draws_of inner ++ draws_of rest).
      { change (o' :: inner ++ EvPop :: rest) with ([o'] ++ inner ++ [EvPop] ++ rest). rewrite !draws_app.
        destruct o'; try contradiction; reflexivity. }
      rewrite D, map_app, grow_app, <- E2, <- E1.
      change (o' :: inner ++ EvPop :: rest) with ([o'] ++ inner ++ [EvPop] ++ rest). rewrite !run_app.
      destruct o'; try contradiction; reflexivity.
    - destruct (IH I n o b (k + 1) (c + depth_band) col) as (c1 & L1 & E1).
      destruct (IH' I n o (grow b (map box (draws_of inner))) k c1 col) as (c2 & L2 & E2). exists c2. split; [lia|].
      assert (D : draws_of (EvBegin name i :: inner ++ EvEnd :: rest) = draws_of inner ++ draws_of rest).
      { change (EvBegin name i :: inner ++ EvEnd :: rest) with ([EvBegin name i] ++ inner ++ [EvEnd] ++ rest). rewrite !draws_app. reflexivity. }
      rewrite D, map_app, grow_app, <- E2.
      change (EvBegin name i :: inner ++ EvEnd :: rest) with ([EvBegin name i] ++ inner ++ [EvEnd] ++ rest). rewrite !run_app.
      replace (tracker_run bbox (mkTracker I (Some n) o b k c col) [EvBegin name i]) with
        (mkTracker I (Some n) o b (k + 1) (c + depth_band) col) by reflexivity.
      rewrite E1. f_equal. cbn [tracker_run fold_left tracker_event]. unfold tracker_end. cbn [tk_layer tk_nesting].
      replace (0 <? k + 1) with true by (symmetry; apply Nat.ltb_lt; lia). cbn [tk_interactive tk_order tk_bounds tk_counter tk_collected].
      now replace (k + 1 - 1) with k by lia.
  Qed.
  (** The hit of a group, if anything is drawn in it. *)
  Definition found (o : nat) (g : string * list event) : list layer_hit :=
    match grow None (map box (draws_of (snd g))) with Some r => [mkHit (fst g) r o] | None => [] end.
  Definition idle (t : tracker) : Prop := tk_layer t = None.
  Lemma name_in_iff n l : name_in n l = true <-> In n l.
  Proof.
    unfold name_in. rewrite existsb_exists. split; [intros (x & Hx & E); apply String.eqb_eq in E; now subst|].
    intros H. exists n. split; [exact H|apply String.eqb_refl].
  Qed.
  Lemma run_outside : forall I w l, outermost (fun n => In n I) w l -> forall o b k c col,
    exists os o' b' k' c', tracker_run bbox (mkTracker I None o b k c col) w =
      mkTracker I None o' b' k' c' (col ++ List.concat (map (fun p => found (fst p) (snd p)) (combine os l))) /\
      List.length os = List.length l /\ c <= c' /\ StronglySorted lt os /\ Forall (fun x => c < x <= c') os.
  Proof.
    intros I. induction 1 as [|e es l He H IH|n i inner rest l Hn H H' IH'|n i inner rest l l' Hn H IH H' IH']; intros o b k c col.
    - exists [], o, b, k, c. cbn. rewrite app_nil_r. repeat split; auto; constructor.
    - destruct (IH o b k c col) as (os & o' & b' & k' & c' & E & R). exists os, o', b', k', c'. split; [|exact R].
      rewrite <- E. destruct e; try contradiction; reflexivity.
    - change (EvBegin n i :: inner ++ EvEnd :: rest) with ([EvBegin n i] ++ inner ++ [EvEnd] ++ rest). rewrite !run_app.
      assert (S1 : tracker_run bbox (mkTracker I None o b k c col) [EvBegin n i] =
                   mkTracker I (Some n) (c + depth_band) None 0 (c + depth_band) col).
      { cbn [tracker_run fold_left tracker_event]. unfold tracker_begin. cbn [tk_layer tk_interactive tk_counter tk_collected].
        now rewrite (proj2 (name_in_iff n I) Hn). }
      rewrite S1. destruct (run_inside inner H I n (c + depth_band) None 0 (c + depth_band) col) as (c1 & L1 & ->).
      set (r := grow None (map box (draws_of inner))).
      replace (tracker_run bbox (mkTracker I (Some n) (c + depth_band) r 0 c1 col) [EvEnd]) with
        (mkTracker I None (c + depth_band) None 0 c1 (col ++ found (c + depth_band) (n, inner))).
      2:{ cbn [tracker_run fold_left tracker_event]. unfold tracker_end. cbn. unfold found. cbn [fst snd]. fold r.
          destruct r; [reflexivity|now rewrite app_nil_r]. }
      destruct (IH' (c + depth_band) None 0 c1 (col ++ found (c + depth_band) (n, inner))) as (os & o' & b' & k' & c' & E & Lo & Lc & So & Fo).
      exists ((c + depth_band) :: os), o', b', k', c'. split; [|split; [|split; [|split]]].
      + rewrite E. cbn [combine map List.concat fst snd]. now rewrite app_assoc.
      + cbn. now rewrite Lo.
      + unfold depth_band in *. lia.
      + constructor; [exact So|]. eapply Forall_impl; [|exact Fo]. cbn. intros; lia.
      + constructor; [unfold depth_band in *; lia|]. eapply Forall_impl; [|exact Fo]. cbn. unfold depth_band in *. intros; lia.
    - change (EvBegin n i :: inner ++ EvEnd :: rest) with ([EvBegin n i] ++ inner ++ [EvEnd] ++ rest). rewrite !run_app.
      assert (S1 : tracker_run bbox (mkTracker I None o b k c col) [EvBegin n i] =
                   mkTracker I None o b k (c + depth_band) col).
      { cbn [tracker_run fold_left tracker_event]. unfold tracker_begin. cbn [tk_layer tk_interactive tk_counter tk_collected tk_order tk_bounds tk_nesting].
        destruct (name_in n I) eqn:X; [apply name_in_iff in X; contradiction|reflexivity]. }
      rewrite S1. destruct (IH o b k (c + depth_band) col) as (os & o1 & b1 & k1 & c1 & -> & Lo & Lc & So & Fo).
      match goal with |- context [tracker_run bbox ?t [EvEnd]] => replace (tracker_run bbox t [EvEnd]) with t by reflexivity end.
      destruct (IH' o1 b1 k1 c1 (col ++ List.concat (map (fun p => found (fst p) (snd p)) (combine os l)))) as
        (os' & o' & b' & k' & c' & -> & Lo' & Lc' & So' & Fo').
      exists (os ++ os'), o', b', k', c'. split; [|split; [|split; [|split]]].
      + f_equal. rewrite <- app_assoc. f_equal. rewrite <- concat_app, <- map_app. do 2 f_equal.
        clear -Lo. revert l Lo. induction os as [|x os IH]; intros [|y l] Lo; try discriminate; [reflexivity|]. cbn. f_equal. apply IH. now injection Lo.
      + rewrite !app_length. lia.
      + lia.
      + clear -So So' Fo Fo'. induction os as [|x os IH]; [exact So'|]. cbn. inversion So; subst. inversion Fo; subst.
        constructor; [now apply IH|]. apply Forall_app. split; [assumption|]. eapply Forall_impl; [|exact Fo']. cbn. intros; lia.
      + apply Forall_app. split; (eapply Forall_impl; [|eassumption]); cbn; unfold depth_band in *; intros; lia.
  Qed.
End run.

(** ** C70 *)
Lemma grow_some bbox p ps : exists r, grow None (map (box bbox) (p :: ps)) = Some r /\ bounds (map (box bbox) (p :: ps)) r.
Proof.
  cbn [map]. assert (G : forall bs a r, bounds a r -> exists r', grow (Some r) bs = Some r' /\ bounds (a ++ bs) r').
  { induction bs as [|b bs IH]; intros a r H; [exists r; split; [reflexivity|now rewrite app_nil_r]|].
    destruct (IH (a ++ [b]) (rect_union r b) (bounds_union _ _ _ H)) as (r' & E & B). exists r'. split; [exact E|].
    now rewrite <- app_assoc in B. }
  destruct (G (map (box bbox) ps) [box bbox p] (box bbox p) (bounds_one _)) as (r & E & B). exists r. split; [exact E|exact B].
Qed.
Definition drawn_in (es : list event) : bool := match draws_of es with [] => false | _ => true end.
Lemma found_hits bbox : forall os l, List.length os = List.length l ->
  let hits := List.concat (map (fun p => found bbox (fst p) (snd p)) (combine os l)) in
  Forall2 (hit_of bbox) (filter (fun g => drawn_in (snd g)) l) hits /\
  (StronglySorted lt os -> StronglySorted lt (map lh_order hits)) /\
  (forall x, In x (map lh_order hits) -> In x os).
Proof.
  induction os as [|o os IH]; intros [|g l] L hits; try discriminate.
  - repeat split; [constructor|intros _; constructor|intros x []].
  - injection L as L. destruct (IH l L) as (H1 & H2 & H3). subst hits. cbn [combine map List.concat fst snd filter].
    assert (Ef : if drawn_in (snd g) then exists r, found bbox o g = [mkHit (fst g) r o] /\ hit_of bbox g (mkHit (fst g) r o)
                 else found bbox o g = []).
    { unfold drawn_in, found, hit_of. destruct (draws_of (snd g)) as [|p ps] eqn:D; [reflexivity|].
      destruct (grow_some bbox p ps) as (r & -> & B). exists r. split; [reflexivity|]. split; [reflexivity|exact B]. }
    destruct (drawn_in (snd g)).
    + destruct Ef as (r & -> & Hh). cbn [app]. split; [now constructor|]. cbn [map lh_order]. split.
      * intros S. inversion S as [|a b S' F]; subst. constructor; [now apply H2|]. rewrite Forall_forall in *. intros x Hx. apply F. now apply H3.
      * intros x [<-|Hx]; [now left|right; now apply H3].
    + rewrite Ef. cbn [app]. split; [exact H1|]. split.
      * intros S. inversion S; subst. now apply H2.
      * intros x Hx. right. now apply H3.
Qed.
(** The hits are those of the outermost layers of interest in which something
    is drawn, later ones are of a higher order, and the tracker is ready for
    the next frame. *)
Theorem C70_hits : forall bbox I es l, outermost (fun n => In n I) es l ->
  let t := tracker_run bbox (tracker_new I) es in
  Forall2 (hit_of bbox) (filter (fun g => drawn_in (snd g)) l) (tk_collected t) /\
  StronglySorted lt (map lh_order (tk_collected t)) /\ tk_layer t = None.
Proof.
  intros bbox I es l H t.
  destruct (run_outside bbox I es l H 0 None 0 0 []) as (os & o & b & k & c & E & Lo & _ & So & _).
  subst t. unfold tracker_new. rewrite E. cbn [tk_collected tk_layer app].
  destruct (found_hits bbox os l Lo) as (H1 & H2 & _). split; [exact H1|]. split; [now apply H2|reflexivity].
Qed.
(** Every well-nested sequence of calls has such layers. *)
Lemma outermost_app I a l : outermost I a l -> forall b l', outermost I b l' -> outermost I (a ++ b) (l ++ l').
Proof.
  induction 1 as [|e es l He H IH|n i inner rest l Hn H H' IH'|n i inner rest l1 l2 Hn H IH H' IH']; intros b l' Hb.
  - exact Hb.
  - cbn [app]. constructor; auto.
  - cbn [app]. rewrite <- app_assoc. cbn [app]. apply om_in; auto.
  - cbn [app]. rewrite <- !app_assoc. cbn [app]. apply om_out; auto.
Qed.
Theorem C70_outermost : forall I es, nested es -> exists l, outermost (fun n => In n I) es l.
Proof.
  intros I es. induction 1 as [|p es H [l IH]|o inner rest Ho H [l IH] H' [l' IH']|name i inner rest H [l IH] H' [l' IH']].
  - exists []. constructor.
  - exists l. now constructor.
  - exists (l ++ l'). constructor; [now destruct o|]. apply outermost_app; [exact IH|]. now constructor.
  - destruct (in_dec string_dec name I) as [Hin|Hout].
    + exists ((name, inner) :: l'). now apply om_in.
    + exists (l ++ l'). now apply om_out.
Qed.
Lemma layers_outermost E c I set tf alpha frame : forall ps calls,
  Forall2 (fun p e => layer_draws E c set (snd p) (fst p) tf alpha frame e) ps calls ->
  (forall p, In p ps -> In (ly_name (snd p)) I) ->
  exists l, outermost (fun n => In n I) (List.concat calls ++ [EvPop]) l /\
    Forall2 (fun (g : (nat * layer) * list event) g' => fst g' = ly_name (snd (fst g)) /\ draws_of (snd g') = draws_of (snd g))
      (filter (fun g => drawn_in (snd g)) (combine ps calls)) (filter (fun g => drawn_in (snd g)) l).
Proof.
  intros ps calls H. induction H as [|p e ps calls Hp H IH]; intros HI.
  - exists []. split; [repeat constructor|constructor].
  - destruct IH as (l & Hl & Fl); [intros q Hq; apply HI; now right|].
    destruct (in_window (snd p) frame) eqn:W.
    + apply active_in_window in W. destruct (layer_body_nested _ _ _ _ _ _ _ _ _ W Hp) as (body & -> & N).
      exists ((ly_name (snd p), body) :: l). split.
      * cbn [List.concat app]. rewrite <- app_assoc. cbn [app]. rewrite <- app_assoc. cbn [app]. apply om_in; auto. apply HI. now left.
      * assert (D : draws_of (EvBegin (ly_name (snd p)) (fst p) :: body ++ [EvEnd]) = draws_of body).
        { change (EvBegin (ly_name (snd p)) (fst p) :: body ++ [EvEnd]) with ([EvBegin (ly_name (snd p)) (fst p)] ++ body ++ [EvEnd]).
          rewrite !draws_app. cbn. now rewrite app_nil_r. }
        assert (D' : drawn_in (EvBegin (ly_name (snd p)) (fst p) :: body ++ [EvEnd]) = drawn_in body) by (unfold drawn_in; now rewrite D).
        cbn [combine filter snd]. rewrite D'. destruct (drawn_in body); [|exact Fl].
        constructor; [|exact Fl]. cbn [fst snd]. now rewrite D.
    + assert (e = []) as ->.
      { eapply layer_draws_inactive; [|exact Hp]. rewrite active_in_window. congruence. }
      exists l. split; [exact Hl|]. exact Fl.
Qed.
(** For the layers of a composition: one hit for every layer that is visible
    at the frame and draws something, from the back to the front, with its
    name and the bounding box of all it draws. *)
Theorem C70_layers : forall E bbox c frame tf alpha r es, used r -> append_draws E c frame tf alpha r es ->
  exists calls,
    let ls := filter (fun p => negb (ly_is_mask (snd p))) (rev (enumerate (co_layers c))) in
    Forall2 (fun p e => layer_draws E c (co_layers c) (snd p) (fst p) tf alpha frame e) ls calls /\
    Forall2 (fun g h => hit_of bbox (ly_name (snd (fst g)), snd g) h)
      (filter (fun g => match draws_of (snd g) with [] => false | _ => true end) (combine ls calls)) (frame_hits bbox c es).
Proof.
  intros E bbox c frame tf alpha r es U H. destruct (C05_back_to_front _ _ _ _ _ _ _ U H) as (calls & F & ->).
  exists calls. cbv zeta. split; [exact F|].
  destruct (layers_outermost E c (interactive_of c) (co_layers c) tf alpha frame _ _ F) as (l & Ol & Fl).
  { intros [i ly] Hin. apply filter_In in Hin as [Hin _]. apply in_rev in Hin. apply in_map_iff. exists ly. split; [reflexivity|].
    apply In_nth_error in Hin as (k & Hk). apply enumerate_spec in Hk as [_ Hk]. eapply nth_error_In; exact Hk. }
  assert (Ol' : outermost (fun n => In n (interactive_of c)) (EvPushClip tf (full_rect c) :: List.concat calls ++ [EvPop]) l)
    by (constructor; [exact I|exact Ol]).
  destruct (C70_hits bbox _ _ _ Ol') as (Hh & _). unfold frame_hits.
  change (fun g : nat * layer * list event => match draws_of (snd g) with [] => false | _ => true end) with
    (fun g : nat * layer * list event => drawn_in (snd g)).
  revert Hh Fl. generalize (tk_collected (tracker_run bbox (tracker_new (interactive_of c)) (EvPushClip tf (full_rect c) :: List.concat calls ++ [EvPop]))).
  generalize (filter (fun g => drawn_in (snd g)) l). generalize (filter (fun g : nat * layer * list event => drawn_in (snd g))
    (combine (filter (fun p => negb (ly_is_mask (snd p))) (rev (enumerate (co_layers c)))) calls)).
  intros gs gs' hs Hh Fl. revert hs Hh. induction Fl as [|g g' gs gs' [E1 E2] _ IH]; intros hs Hh; inversion Hh; subst; constructor; [|now apply IH].
  destruct H2 as [A B]. split; [cbn [fst]; congruence|]. cbn [snd]. now rewrite <- E2.
Qed.

(** The layer under the cursor is the top-most hit that contains it. *)
Lemma max_by_key_spec {A} (key : A -> nat) l :
  match max_by_key key l with
  | Some m => In m l /\ forall y, In y l -> key y <= key m
  | None => l = []
  end.
Proof.
  destruct l as [|x l]; [reflexivity|]. cbn [max_by_key].
  assert (G : forall l x, let m := fold_left (fun m y => if key y <? key m then m else y) l x in
            (m = x \/ In m l) /\ key x <= key m /\ forall y, In y l -> key y <= key m).
  { clear. induction l as [|z l IH]; intros x; cbv zeta.
    - cbn. repeat split; auto. intros y [].
    - cbn [fold_left]. destruct (key z <? key x) eqn:L.
      + destruct (IH x) as (I1 & I2 & I3). apply Nat.ltb_lt in L. split; [destruct I1; [now left|right; now right]|]. split; [exact I2|].
        intros y [<-|Hy]; [lia|now apply I3].
      + destruct (IH z) as (I1 & I2 & I3). apply Nat.ltb_ge in L. split; [right; destruct I1; [left; congruence|now right]|]. split; [lia|].
        intros y [<-|Hy]; [lia|now apply I3]. }
  destruct (G l x) as (I1 & I2 & I3). split; [destruct I1; [left; congruence|now right]|]. intros y [<-|Hy]; [exact I2|now apply I3].
Qed.
Lemma sorted_nth : forall l i j a b, StronglySorted lt l -> i < j -> nth_error l i = Some a -> nth_error l j = Some b -> a < b.
Proof.
  induction l as [|x l IH]; intros [|i] [|j] a b S L Ha Hb; try discriminate; try lia; inversion S as [|? ? S' F]; subst.
  - injection Ha as <-. rewrite Forall_forall in F. apply F. eapply nth_error_In; exact Hb.
  - apply (IH i j a b); auto. lia.
Qed.
Lemma pick_topmost hits cursor : StronglySorted lt (map lh_order hits) ->
  topmost (map lh_rect hits) cursor (pick_layer hits cursor).
Proof.
  intros S. unfold pick_layer. set (f := filter _ _).
  assert (Inf : forall i h, In (i, h) f <-> nth_error hits i = Some h /\ rect_contains (lh_rect h) cursor = true).
  { intros i h. subst f. rewrite filter_In. cbn [snd]. split; intros [H1 H2]; split; auto.
    - apply In_nth_error in H1 as (k & Hk). apply enumerate_spec in Hk as [-> Hk]. exact Hk.
    - apply (nth_error_In (enumerate hits) i). apply enumerate_spec. auto. }
  pose proof (max_by_key_spec (fun p : nat * layer_hit => lh_order (snd p)) f) as M.
  destruct (max_by_key _ f) as [[i h]|]; cbn [option_map fst topmost].
  - destruct M as [M1 M2]. apply Inf in M1 as [Hi Hc]. split.
    + exists (lh_rect h). split; [now apply map_nth_error|exact Hc].
    + intros j r Lj Hr. destruct (nth_error hits j) as [h'|] eqn:Hj.
      2:{ apply nth_error_None in Hj. assert (nth_error (map lh_rect hits) j = None) by (apply nth_error_None; now rewrite map_length). congruence. }
      apply (map_nth_error lh_rect) in Hj as Hr'. assert (r = lh_rect h') as -> by congruence.
      destruct (rect_contains (lh_rect h') cursor) eqn:C; [|reflexivity]. exfalso.
      assert (In' : In (j, h') f) by now apply Inf. apply M2 in In'. cbn [snd] in In'.
      assert (lh_order h < lh_order h'); [|lia].
      eapply sorted_nth; [exact S|exact Lj|now apply map_nth_error|now apply map_nth_error].
  - intros r Hr. apply in_map_iff in Hr as (h & <- & Hh). apply In_nth_error in Hh as (i & Hi).
    destruct (rect_contains (lh_rect h) cursor) eqn:C; [|reflexivity].
    assert (X : In (i, h) f) by now apply Inf. rewrite M in X. destruct X.
Qed.
Theorem C70_topmost : forall E bbox c frame tf alpha r es cursor, used r -> append_draws E c frame tf alpha r es ->
  let hits := frame_hits bbox c es in topmost (map lh_rect hits) cursor (pick_layer hits cursor).
Proof.
  intros E bbox c frame tf alpha r es cursor U (fuel & H & <-) hits. apply pick_topmost.
  destruct (C01_balanced _ _ _ _ _ _ _ H) as (body & Eb & N).
  assert (N' : nested (events (append E fuel c frame tf alpha r))).
  { rewrite Eb. change (nested (EvPushClip tf (full_rect c) :: body ++ EvPop :: [])). apply nested_layer; [exact I|exact N|constructor]. }
  destruct (C70_outermost (interactive_of c) _ N') as (l & Hl). apply (C70_hits bbox _ _ _ Hl).
Qed.
(** The picture is the one drawn without hit-testing. *)
Theorem C70_forward : forall es, flat_map picking_op es = flat_map vello_op es.
Proof. intros es. induction es as [|e es IH]; [reflexivity|]. cbn [flat_map]. rewrite IH. now destruct e. Qed.
(** The conditions are met: hit-testing a frame of the example composition,
    with every outline taken to fill the unit square. *)
Definition unit_box (_ : list path_el) : rect := mkRect f0 f0 f1 f1.
Definition half : f64 := flit 1 2.
Example C70_applies :
  let r := append E0 5 comp1 (f_of_Z 3) affine_identity f1 renderer_new in
  append_draws E0 comp1 (f_of_Z 3) affine_identity f1 renderer_new (events r) /\
  map lh_name (frame_hits unit_box comp1 (events r)) = ["inst"; "content"]%string /\
  pick_layer (frame_hits unit_box comp1 (events r)) (mkPoint half half) = Some 1 /\
  pick_layer (frame_hits unit_box comp1 (events r)) (mkPoint (f_of_Z 7) half) = None.
Proof.
  cbv zeta. split; [exists 5; split; [exact (proj1 comp1_renders)|reflexivity]|].
  split; [vm_compute; reflexivity|]. split; vm_compute; reflexivity.
Qed.
