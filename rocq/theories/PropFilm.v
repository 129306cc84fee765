(** C100: a document of moving shapes, from its JSON to the scene of every frame. *)
From Coq Require Import ZArith Bool List Arith String Lia Reals Lra.
From Flocq Require Import Core BinarySingleNaN.
From Verif Require Import F64 Kurbo Value Animated Batch Render RenderSpec BatchSpec FrameSpec Schema Import Serde PropFrame PropDocument
  F64Facts ValueSpec ValueFacts2 EasingSpec ImportSpec ImportFacts TimelineSpec PropImport2 PropEasing PropPoster FilmSpec.
Import ListNotations.
Open Scope string_scope.
Open Scope list_scope.
Open Scope nat_scope.

(** ** Reading *)
Definition src_handle (h : f64 * f64) : kf_handle := mkKfHandle (KcSingle (fst h)) (KcSingle (snd h)).
Definition src_beat {A} (nums : A -> list f64) (k : beat A) : keyframe :=
  mkKeyframe (mkKfBase (bt_time k) (Some (if bt_hold k then BITrue else BIFalse)) (Some (src_handle (bt_in k))) (Some (src_handle (bt_out k)))) (nums (bt_value k)) None.
Definition ns1 (x : f64) : list f64 := [x].
Definition ns2 (x : pair) : list f64 := [fst x; snd x].
Definition src_num (t : track f64) : anim_prop f64 :=
  match t with Still x => st x | Moving b l => mkAnimProp None None None None (AkAnimated (map (src_beat ns1) (b :: l))) end.
Definition src_pos (t : track pair) : s_position :=
  match t with Still x => src_pair (fst x) (snd x)
  | Moving b l => mkSPosition None None None None (PkAnimated (map (fun k => mkPosKeyframe (src_beat ns2 k) None None) (b :: l))) end.
Definition src_multi (t : track pair) : multi_dim :=
  match t with Still x => mkMultiDim (st [fst x; snd x]) None
  | Moving b l => mkMultiDim (mkAnimProp None None None None (AkAnimated (map (src_beat ns2) (b :: l)))) None end.
Definition src_cue (c : cue) : s_transform :=
  mkSTransform (Some (src_pos (cu_anchor c))) (ApPosition (src_pos (cu_position c)))
    (Some (src_multi (cu_scale c))) (Some (ArRotation (src_num (cu_rotation c)))) None None (Some (src_num (cu_opacity c))).
Definition src_actor_outline (i : actor) : any_shape :=
  if ac_round i then AsEllipse (mkSShape no_ge None) (src_pos (ac_centre i)) (src_multi (ac_size i))
  else AsRectangle (mkSShape no_ge None) (src_pos (ac_centre i)) (src_multi (ac_size i)) (st f0).
Definition src_actor (i : actor) : any_shape :=
  AsGroup no_ge None [src_actor_outline i; AsFill (mkStyle no_ge (src_num (ac_opacity i))) (st [ac_r i; ac_g i; ac_b i]) None;
    AsTransform (mkTransformShape no_ge (src_cue (ac_cue i)))] None.
Definition src_act (s : act) : any_layer :=
  AlShape (mkVisualLayer (mkSLayer no_vo None None 4 None None None (ct_ip s) (ct_op s) None) None None None (src_cue (ct_cue s))
     None None None None None None None None None None) (map src_actor (ct_actors s)).
Definition src_film (f : film) : animation :=
  mkAnimation no_vo (map src_act (fi_acts f)) None None (fi_rate f) (fi_in f) (fi_out f) (fi_wide f) (fi_high f) None None None None None.

Lemma beat1_read k : de_keyframe (beat_json ns1 k) = Some (src_beat ns1 k).
Proof. destruct k as [t v [|] [ox oy] [ix iy]]; reflexivity. Qed.
Lemma beat2_read k : de_keyframe (beat_json ns2 k) = Some (src_beat ns2 k).
Proof. destruct k as [t [v w] [|] [ox oy] [ix iy]]; reflexivity. Qed.
Lemma beat_pos_read k : de_pos_keyframe (beat_json ns2 k) = Some (mkPosKeyframe (src_beat ns2 k) None None).
Proof. destruct k as [t [v w] [|] [ox oy] [ix iy]]; reflexivity. Qed.
Lemma only_k {T} (f : json -> option T) j : de_anim_prop f [("k", j)] =
  match de_anim_k f j with Some k => Some (mkAnimProp None None None None k) | None => None end.
Proof. reflexivity. Qed.
Lemma moving_read {A} (nums : A -> list f64) (rd : forall k, de_keyframe (beat_json nums k) = Some (src_beat nums k)) {T} (f : json -> option T) l :
  de_anim_prop f [("k", JArr (map (beat_json nums) l))] = Some (mkAnimProp None None None None (AkAnimated (map (src_beat nums) l))).
Proof. rewrite only_k. unfold de_anim_k. cbn [de_list]. rewrite (map_read _ _ _ l rd). reflexivity. Qed.
Lemma num_read t : de_float_value (number_track t) = Some (src_num t).
Proof. destruct t as [x|b l]; [reflexivity|]. exact (moving_read ns1 beat1_read de_f64 (b :: l)). Qed.
Lemma multi_read t : de_multi_dim (pair_track t) = Some (src_multi t).
Proof.
  destruct t as [x|b l]; [reflexivity|]. unfold pair_track, src_multi. change (fun x : pair => [fst x; snd x]) with ns2.
  assert (K : forall j, de_multi_dim (JObj [("k", j)]) = match de_anim_prop de_floats [("k", j)] with Some p => Some (mkMultiDim p None) | None => None end) by reflexivity.
  rewrite K, (moving_read ns2 beat2_read). reflexivity.
Qed.
Lemma pos_read t : de_position (pair_track t) = Some (src_pos t).
Proof.
  destruct t as [x|b l]; [reflexivity|]. unfold pair_track, src_pos. change (fun x : pair => [fst x; snd x]) with ns2.
  assert (K : forall j, de_position (JObj [("k", j)]) = match de_position_k j with Some k => Some (mkSPosition None None None None k) | None => None end) by reflexivity.
  rewrite K. unfold de_position_k.
  pose proof (map_read (beat_json ns2) de_pos_keyframe _ (b :: l) beat_pos_read) as H.
  match goal with |- context [de_list ?d ?j] => replace (de_list d j) with (Some (map (fun k => mkPosKeyframe (src_beat ns2 k) None None) (b :: l))) by (symmetry; exact H) end.
  reflexivity.
Qed.

Lemma pair_obj t : exists j, pair_track t = JObj [("k", j)].
Proof. destruct t; eexists; reflexivity. Qed.
Lemma num_obj t : exists j, number_track t = JObj [("k", j)].
Proof. destruct t; eexists; reflexivity. Qed.
Ltac track_pair t j H G := destruct (pair_obj t) as [j H]; pose proof (pos_read t) as G; rewrite H in G.
Ltac track_multi t j H G := destruct (pair_obj t) as [j H]; pose proof (multi_read t) as G; rewrite H in G.
Ltac track_num t j H G := destruct (num_obj t) as [j H]; pose proof (num_read t) as G; rewrite H in G.
Lemma cue_read c : de_transform_fs (cue_members c) = Some (src_cue c).
Proof.
  destruct c as [a p s r o]. unfold cue_members, src_cue. cbn [cu_anchor cu_position cu_scale cu_rotation cu_opacity].
  track_pair a ja Ha Ga. track_pair p jp Hp Gp. track_multi s js Hs Gs. track_num r jr Hr Gr. track_num o jo Ho Go.
  rewrite Ha, Hp, Hs, Hr, Ho. clear Ha Hp Hs Hr Ho.
  lazy - [f0 de_position de_multi_dim de_float_value src_pos src_multi src_num]. rewrite Ga, Gp, Gs, Gr, Go. reflexivity.
Qed.
Lemma actor_read i : de_shape false (actor_json i) = Some (src_actor i).
Proof.
  destruct i as [rd ce sz r g b o [ca cp cs cr co]]. unfold actor_json, src_actor, cue_members, src_cue, actor_outline_json, src_actor_outline, actor_fill_json.
  cbn [ac_round ac_centre ac_size ac_r ac_g ac_b ac_opacity ac_cue cu_anchor cu_position cu_scale cu_rotation cu_opacity].
  track_pair ca ja Ha Ga. track_pair cp jp Hp Gp. track_multi cs js Hs Gs. track_num cr jr Hr Gr. track_num co jo Ho Go.
  track_pair ce jc Hc Gc. track_multi sz jz Hz Gz. track_num o ju Hu Gu.
  rewrite Ha, Hp, Hs, Hr, Ho, Hc, Hz, Hu. clear Ha Hp Hs Hr Ho Hc Hz Hu.
  pose proof (eq_refl : de_float_value (number_json f0) = Some (st f0)) as G0. unfold number_json in *.
  destruct rd; lazy - [f0 de_position de_multi_dim de_float_value src_pos src_multi src_num]; rewrite Ga, Gp, Gs, Gr, Go, Gc, Gz, Gu; rewrite ?G0; reflexivity.
Qed.
Lemma act_read s : de_layer (act_json s) = Some (src_act s).
Proof.
  destruct s as [ip op [ca cp cs cr co] l].
  assert (H : de_list (de_shape false) (JArr (map actor_json l)) = Some (map src_actor l)) by (apply map_read, actor_read).
  unfold act_json, src_act, cue_members, src_cue. cbn [ct_ip ct_op ct_cue ct_actors cu_anchor cu_position cu_scale cu_rotation cu_opacity].
  track_pair ca ja Ha Ga. track_pair cp jp Hp Gp. track_multi cs js Hs Gs. track_num cr jr Hr Gr. track_num co jo Ho Go.
  rewrite Ha, Hp, Hs, Hr, Ho. clear Ha Hp Hs Hr Ho.
  set (q := map actor_json l) in *. set (r := map src_actor l) in *. clearbody q r. cbn [de_list] in H.
  lazy - [f0 de_position de_multi_dim de_float_value src_pos src_multi src_num de_shape mapO]. rewrite Ga, Gp, Gs, Gr, Go, H. reflexivity.
Qed.
Lemma film_read f : (0 <= fi_wide f <= usize_max)%Z -> (0 <= fi_high f <= usize_max)%Z -> de_animation (film_json f) = Some (src_film f).
Proof.
  intros Hw Hh.
  assert (H : de_list de_layer (JArr (map act_json (fi_acts f))) = Some (map src_act (fi_acts f))) by (apply map_read, act_read).
  assert (U : forall z, (0 <= z <= usize_max)%Z -> de_uint usize_max (JInt z) = Some z).
  { intros z Hz. unfold de_uint. destruct (Z.leb_spec 0 z), (Z.leb_spec z usize_max); try lia. reflexivity. }
  apply U in Hw. apply U in Hh. clear U. unfold de_animation, film_json, src_film. cbn [de_list] in H. unfold de_uint in Hw, Hh. cbn. rewrite H, Hw, Hh. reflexivity.
Qed.

(** ** Importing *)
Definition time_of {A} (k : beat A) : time :=
  mkTime (bt_time k) (Some (mkHandle (fst (bt_in k)) (snd (bt_in k)))) (Some (mkHandle (fst (bt_out k)) (snd (bt_out k)))) (bt_hold k).
Definition value_of {A T} (g : A -> T) (t : track A) : value T :=
  match t with Still x => VFixed (g x) | Moving b l => VAnimated (mkAnim (map time_of (b :: l)) (map (fun k => g (bt_value k)) (b :: l))) end.
Definition mnum : track f64 -> value f64 := value_of (fun x => x).
Definition pt (x : pair) : point := mkPoint (fst x) (snd x).
Definition vc (x : pair) : vec2 := mkVec2 (fst x) (snd x).
Definition sz (x : pair) : size := mkSize (fst x) (snd x).
Lemma num_conv t : conv_scalar (src_num t) = Ok (mnum t).
Proof.
  destruct t as [x|b l]; [reflexivity|]. unfold src_num, conv_scalar. cbn [ap_k].
  assert (H : forall bs, mapM conv_scalar_kf (map (src_beat ns1) bs) = Ok (map (fun k => (time_of k, bt_value k)) bs)).
  { induction bs as [|k bs IH]; [reflexivity|]. cbn [map mapM]. rewrite IH. destruct k as [t v [|] [ox oy] [ix iy]]; reflexivity. }
  rewrite H. cbn [bind]. rewrite !map_map. reflexivity.
Qed.
Lemma beats_conv {T} (f : list f64 -> T) (g : pair -> T) bs : (forall x, f (ns2 x) = g x) ->
  flat_map (conv_keyframe f) (map (src_beat ns2) bs) = map (fun k => (time_of k, g (bt_value k))) bs.
Proof.
  intros H. induction bs as [|k bs IH]; [reflexivity|]. cbn [map flat_map]. rewrite IH. cbn [app].
  replace (conv_keyframe f (src_beat ns2 k)) with [(time_of k, f (ns2 (bt_value k)))]; [|destruct k as [t v [|] [ox oy] [ix iy]]; reflexivity].
  now rewrite H.
Qed.
Lemma pos_conv t : conv_pos_point (src_pos t) = value_of pt t.
Proof.
  destruct t as [x|b l]; [reflexivity|]. unfold src_pos, conv_pos_point, conv_pos. cbn [po_k]. rewrite map_map. cbn [pk_kf].
  unfold conv_keyframes. change (map (fun x => src_beat ns2 x) (b :: l)) with (map (src_beat ns2) (b :: l)).
  rewrite (beats_conv to_point pt (b :: l)) by reflexivity. rewrite !map_map. reflexivity.
Qed.
Lemma vec_conv t : conv_vec2 (src_multi t) = value_of vc t.
Proof.
  destruct t as [x|b l]; [reflexivity|]. unfold src_multi, conv_vec2, conv_multi. cbn [md_p ap_k].
  unfold conv_keyframes. rewrite (beats_conv to_vec2 vc (b :: l)) by reflexivity. rewrite !map_map. reflexivity.
Qed.
Lemma size_conv t : conv_size (src_multi t) = value_of sz t.
Proof.
  destruct t as [x|b l]; [reflexivity|]. unfold src_multi, conv_size, conv_multi. cbn [md_p ap_k].
  unfold conv_keyframes. rewrite (beats_conv to_size sz (b :: l)) by reflexivity. rewrite !map_map. reflexivity.
Qed.
Definition cue_tr (c : cue) : a_transform :=
  mkATransform (value_of pt (cu_anchor c)) (PosValue (value_of pt (cu_position c))) (mnum (cu_rotation c)) (value_of vc (cu_scale c)) (VFixed f0) (VFixed f0).
Definition spot_of (E : Ext) (c : cue) (frame : f64) : spot :=
  let a := eval E (value_of pt (cu_anchor c)) frame in let p := eval E (value_of pt (cu_position c)) frame in let s := eval E (value_of vc (cu_scale c)) frame in
  mkSpot (px a) (py a) (px p) (py p) (vx s) (vy s) (eval E (mnum (cu_rotation c)) frame) (eval E (mnum (cu_opacity c)) frame).
Lemma cue_conv E c : conv_transform E (src_cue c) = Ok (a_transform_into_model E (cue_tr c), mnum (cu_opacity c)).
Proof.
  unfold conv_transform, src_cue. cbn [tf_r tf_p tf_sk tf_sa tf_a tf_s tf_o bind unwrap_or]. rewrite !num_conv. cbn [bind].
  rewrite !pos_conv, vec_conv. reflexivity.
Qed.
Lemma cue_eval E c frame : transform_eval E (a_transform_into_model E (cue_tr c)) frame = put E (spot_of E c frame).
Proof. rewrite transform_model. reflexivity. Qed.
Definition figure_of (E : Ext) (frame : f64) (a : actor) : figure :=
  let c := eval E (value_of pt (ac_centre a)) frame in let s := eval E (value_of sz (ac_size a)) frame in
  mkFigure (ac_round a) (px c) (py c) (width s) (height s) (ac_r a) (ac_g a) (ac_b a) (eval E (mnum (ac_opacity a)) frame) (spot_of E (ac_cue a) frame).
Definition sheet_of (E : Ext) (frame : f64) (a : act) : sheet :=
  mkSheet (ct_ip a) (ct_op a) (spot_of E (ct_cue a) frame) (map (figure_of E frame) (ct_actors a)).
Definition poster_of (E : Ext) (frame : f64) (f : film) : poster :=
  mkPoster (fi_in f) (fi_out f) (fi_rate f) (fi_wide f) (fi_high f) (map (sheet_of E frame) (fi_acts f)).

(** ** The values are those of the moment *)
Open Scope R_scope.
Lemma where_is {A} (x : R) (l : list (beat A)) : forall b,
  x < B2R (bt_time b) \/
  (exists k k' before after, b :: l = before ++ k :: k' :: after /\ B2R (bt_time k) <= x < B2R (bt_time k')) \/
  (exists k before, b :: l = before ++ [k] /\ B2R (bt_time k) <= x).
Proof.
  induction l as [|c l IH]; intros b; (destruct (Rlt_le_dec x (B2R (bt_time b))) as [H|H]; [now left|]); right.
  - right. exists b, []. split; [reflexivity|exact H].
  - destruct (IH c) as [I|[(k & k' & bf & af & Ec & I)|(k & bf & Ec & I)]].
    + left. exists b, c, [], l. split; [reflexivity|]. now split.
    + left. exists k, k', (b :: bf), af. split; [now rewrite Ec|exact I].
    + right. exists k, (b :: bf). split; [now rewrite Ec|exact I].
Qed.
Lemma nth_mid {A} (p : list A) x q : nth_error (p ++ x :: q) (List.length p) = Some x.
Proof. rewrite nth_error_app2 by lia. now rewrite Nat.sub_diag. Qed.
Lemma nth_mid2 {A} (p : list A) x y q : nth_error (p ++ x :: y :: q) (S (List.length p)) = Some y.
Proof. rewrite nth_error_app2 by lia. now replace (S (List.length p) - List.length p)%nat with 1%nat by lia. Qed.
Lemma moderate_time {A} nums (k : beat A) : good_beat nums k -> moderate (bt_time k).
Proof.
  intros (F & B & _). split; [exact F|]. apply Rle_trans with (1 := B). change 1048576 with (IZR (2 ^ 20)). change 2%Z with (radix_val radix2).
  rewrite (IZR_Zpower radix2) by lia. apply bpow_le. lia.
Qed.
Lemma split_at {A} (l : list A) i j x y : (i < j)%nat -> nth_error l i = Some x -> nth_error l j = Some y ->
  exists p q r, l = p ++ x :: q ++ y :: r.
Proof.
  intros H Hx Hy. apply nth_error_split in Hx as (p & r & -> & Lp). rewrite nth_error_app2 in Hy by lia.
  destruct (j - List.length p)%nat as [|m] eqn:M; [lia|]. cbn in Hy. apply nth_error_split in Hy as (q & r' & -> & _). exists p, q, r'. reflexivity.
Qed.
Lemma good_order {A} nums (b : beat A) l : good_track nums (Moving b l) -> in_order (map (src_beat nums) (b :: l)).
Proof.
  intros [G O] i j k k' H Hk Hk'. rewrite nth_error_map in Hk, Hk'.
  destruct (nth_error (b :: l) i) as [x|] eqn:Hx; [|discriminate]. destruct (nth_error (b :: l) j) as [y|] eqn:Hy; [|discriminate].
  injection Hk as <-. injection Hk' as <-. rewrite Forall_forall in G.
  apply fltb_lt; [apply (G x (nth_error_In _ _ Hx))|apply (G y (nth_error_In _ _ Hy))|].
  destruct (split_at _ _ _ _ _ H Hx Hy) as (p & q & r & Es). apply (O x y p q r Es).
Qed.
Lemma good_moderate {A} nums (b : beat A) l : good_track nums (Moving b l) -> moderate_keyframes (map (src_beat nums) (b :: l)).
Proof. intros [G _]. apply Forall_map. eapply Forall_impl; [|exact G]. intros k. apply moderate_time. Qed.
Lemma good_easing {A} nums (k : beat A) : good_beat nums k ->
  ordinary_easing (mkEasing (mkHandle (fst (bt_out k)) (snd (bt_out k))) (mkHandle (fst (bt_in k)) (snd (bt_in k)))).
Proof. intros (_ & _ & _ & A1 & A2 & A3 & A4). unfold ordinary_easing. cbn [eo ei hx hy]. repeat split; tauto. Qed.
Lemma sane_src {A} nums (k : beat A) : good_beat nums k -> sane_handles (kf_b (src_beat nums k)).
Proof.
  intros (_ & _ & _ & (A1 & A2) & (B1 & B2) & (C1 & C2) & (D1 & D2)) j h H.
  assert (P20 : 16 <= bpow radix2 20) by (replace 16 with (bpow radix2 4) by (cbn; lra); apply bpow_le; lia).
  assert (P1000 : 16 <= bpow radix2 1000) by (replace 16 with (bpow radix2 4) by (cbn; lra); apply bpow_le; lia).
  destruct H as [(x & Hx & P & Q)|(x & Hx & P & Q)]; cbn in Hx; injection Hx as <-; cbn in P, Q; unfold sane_handle, moderate;
    rewrite <- P, <- Q; repeat split; auto; lra.
Qed.
Definition easing_of {A} (k : beat A) : easing := mkEasing (mkHandle (fst (bt_out k)) (snd (bt_out k))) (mkHandle (fst (bt_in k)) (snd (bt_in k))).
Lemma easing_single {A} nums (k : beat A) e : easing_at (kf_b (src_beat nums k)) 0 e -> e = easing_of k.
Proof.
  intros [[H1 H2] [H3 H4]]. destruct e as [[a b] [c d]]. cbn in H1, H2, H3, H4. unfold easing_of. now rewrite H1, H2, H3, H4.
Qed.
Lemma held_src {A} nums (k : beat A) : held (src_beat nums k) <-> bt_hold k = true.
Proof. unfold held, src_beat. cbn [kf_b kb_hold]. destruct (bt_hold k); split; congruence. Qed.
Lemma eased_glides {A} nums (k l : beat A) frame a b v : eased (src_beat nums k) (src_beat nums l) (easing_of k) frame a b v -> glides k l frame a b v.
Proof. intros (F & y & C & V). split; [exact F|]. exists y. split; [exact C|exact V]. Qed.
Lemma moment_of {A T} `{Tween T} `{Numbers T} E nums val (eases : keyframe -> easing -> Prop) (part : A -> A -> (f64 -> f64 -> f64 -> Prop) -> A -> Prop) (conv : A -> T) (back : T -> A) b l g frame :
  (forall k, val (src_beat nums k) = conv (bt_value k)) -> (forall a, back (conv a) = a) ->
  (forall k e, eases (src_beat nums k) e -> e = easing_of k) ->
  (forall a a' w e (R : f64 -> f64 -> f64 -> Prop), Forall ordinary_number (nums a) -> Forall ordinary_number (nums a') ->
     (forall x y, ordinary_number x -> ordinary_number y -> R x y (tween_f64 E x y w e)) -> part a a' R (back (tween E (conv a) (conv a') w e))) ->
  (forall a x, Forall ordinary_number (nums a) -> same_value x (conv a) -> part a a (fun a _ x => fin x /\ B2R x = B2R a) (back x)) ->
  (forall a, Forall ordinary_number (nums a) -> finite_value (conv a)) ->
  solves E -> good_track nums (Moving b l) -> fin frame ->
  (in_order (map (src_beat nums) (b :: l)) -> moderate_keyframes (map (src_beat nums) (b :: l)) -> follows E (map (src_beat nums) (b :: l)) val eases g) ->
  moment part (Moving b l) frame (back (g frame)).
Proof.
  intros Hv Hb He Hp Hl Hf So G Ff F. pose proof (good_order nums b l G) as O. pose proof (good_moderate nums b l G) as M. specialize (F O M).
  destruct G as [G _]. rewrite Forall_forall in G. cbn [moment].
  destruct (where_is (B2R frame) l b) as [I|[(k & k' & bf & af & Ec & I1 & I2)|(k & bf & Ec & I)]].
  - left. split; [exact I|]. assert (fin (bt_time b)) as Fb by (apply (G b); now left).
    rewrite (fo_before _ _ _ _ _ F (src_beat nums b) (map (src_beat nums) l) frame Ff eq_refl); [now rewrite Hv, Hb|]. now apply fltb_lt.
  - right. left. exists k, k', bf, af. split; [exact Ec|]. split; [now split|].
    assert (Gk : good_beat nums k) by (apply G; rewrite Ec; apply in_or_app; right; now left).
    assert (Gk' : good_beat nums k') by (apply G; rewrite Ec; apply in_or_app; right; right; now left).
    assert (N1 : nth_error (map (src_beat nums) (b :: l)) (List.length bf) = Some (src_beat nums k)) by (rewrite nth_error_map, Ec, nth_mid; reflexivity).
    assert (N2 : nth_error (map (src_beat nums) (b :: l)) (S (List.length bf)) = Some (src_beat nums k')) by (rewrite nth_error_map, Ec, nth_mid2; reflexivity).
    assert (Bt : between (src_beat nums k) (src_beat nums k') frame).
    { split; [apply fleb_le|apply fltb_lt]; auto; try apply Gk; try apply Gk'. }
    destruct (bt_hold k) eqn:Hk.
    + rewrite (fo_held _ _ _ _ _ F _ _ _ frame Ff N1 N2 Bt); [now rewrite Hv, Hb|]. now apply held_src.
    + destruct (fo_between _ _ _ _ _ F _ _ _ frame Ff N1 N2 Bt) as (e & Ee & ->); [rewrite held_src; congruence|].
      rewrite !Hv. apply He in Ee. subst e. apply Hp; [apply Gk|apply Gk'|].
      intros x y Ox Oy. apply (eased_glides nums). apply eased_weaken; auto; [now apply (good_easing nums)|now apply (moderate_time nums)|now apply (moderate_time nums)].
  - right. right. exists k, bf. split; [exact Ec|]. split; [exact I|].
    assert (Gk : good_beat nums k) by (apply G; rewrite Ec; apply in_or_app; right; now left).
    assert (Em : map (src_beat nums) (b :: l) = map (src_beat nums) bf ++ [src_beat nums k]) by (rewrite Ec, map_app; reflexivity).
    assert (Ov : Forall ordinary_number (nums (bt_value k))) by apply Gk. assert (Ft : fin (bt_time k)) by apply Gk.
    apply Hl; [exact Ov|]. destruct (Rle_lt_or_eq_dec _ _ I) as [L|L].
    + rewrite (fo_after _ _ _ _ _ F _ _ frame Ff Em); [|now apply fltb_lt]. rewrite Hv.
      specialize (Hf _ Ov). unfold same_value, finite_value in *. induction Hf as [|x r Hx _ IH]; constructor; [|exact IH]. unfold same_number. now apply feqb_eq.
    + rewrite <- Hv. apply (fo_last _ _ _ _ _ F _ _ frame Ff Em); [now apply feqb_eq|now apply sane_src|]. rewrite Hv. now apply Hf.
Qed.

Lemma ordinary_fin x : ordinary_number x -> is_finite x = true. Proof. now intros []. Qed.
Lemma same_R x y : ordinary_number y -> same_number x y -> fin x /\ B2R x = B2R y.
Proof.
  intros [Fy _] S. unfold same_number in S. assert (Fx : fin x).
  { destruct x as [s|[|]| |s m e Hb], y as [s'|[|]| |s' m' e' Hb']; try discriminate Fy; try discriminate S; reflexivity. }
  split; [exact Fx|]. now apply feqb_eq.
Qed.
Lemma num_now E t frame : solves E -> good_number t -> fin frame -> moment one t frame (eval E (mnum t) frame).
Proof.
  intros So G Ff. destruct t as [x|b l]; [reflexivity|].
  apply (moment_of E ns1 first_number scalar_easing one (fun x => x) (fun x => x) b l (fun frame => eval E (mnum (Moving b l)) frame) frame); auto.
  - intros k e Ee. exact (easing_single ns1 k e Ee).
  - intros a a' w e R Oa Ob HR. inversion_clear Oa. inversion_clear Ob. now apply HR.
  - intros a x Oa S. inversion_clear Oa. inversion_clear S. now apply same_R.
  - intros a Oa. inversion_clear Oa. constructor; [now apply ordinary_fin|constructor].
  - pose proof (conv_scalar_spec (src_num (Moving b l))) as S. rewrite num_conv in S. destruct S as [_ S]. exact (scalar_means_reads E _ _ S).
Qed.
Lemma vector_single {A} nums (k : beat A) e : vector_easing (src_beat nums k) e -> e = easing_of k.
Proof. intros H. exact (easing_single nums k e H). Qed.
Definition pt_back (p : point) : pair := (px p, py p).
Definition vc_back (p : vec2) : pair := (vx p, vy p).
Definition sz_back (p : size) : pair := (width p, height p).
Lemma pt_now E t frame : solves E -> good_pair t -> fin frame -> moment two t frame (pt_back (eval E (value_of pt t) frame)).
Proof.
  intros So G Ff. destruct t as [[x y]|b l]; [reflexivity|].
  apply (moment_of E ns2 (fun k => point_of (kf_value k)) vector_easing two pt pt_back b l (fun frame => eval E (value_of pt (Moving b l)) frame) frame); auto.
  - now intros [].
  - intros k e. apply vector_single.
  - intros a a' w e R Oa Ob HR. inversion_clear Oa as [|? ? Oa1 Oa']. inversion_clear Oa' as [|? ? Oa2 _].
    inversion_clear Ob as [|? ? Ob1 Ob']. inversion_clear Ob' as [|? ? Ob2 _]. split; now apply HR.
  - intros a x Oa S. inversion_clear Oa as [|? ? Oa1 Oa']. inversion_clear Oa' as [|? ? Oa2 _]. 
    inversion_clear S as [|? ? ? ? S1 S']. inversion_clear S' as [|? ? ? ? S2 _]. split; now apply same_R.
  - intros a Oa. inversion_clear Oa as [|? ? Oa1 Oa']. inversion_clear Oa' as [|? ? Oa2 _]. repeat constructor; now apply ordinary_fin.
  - pose proof (conv_pos_reads (src_pos (Moving b l))) as S. rewrite pos_conv in S. pose proof (pos_means_reads E _ _ S) as P.
    unfold pos_means, src_pos in P. cbn [po_k] in P. rewrite map_map in P. exact P.
Qed.
Lemma vc_now E t frame : solves E -> good_pair t -> fin frame -> moment two t frame (vc_back (eval E (value_of vc t) frame)).
Proof.
  intros So G Ff. destruct t as [[x y]|b l]; [reflexivity|].
  apply (moment_of E ns2 (fun k => vec2_of (kf_value k)) vector_easing two vc vc_back b l (fun frame => eval E (value_of vc (Moving b l)) frame) frame); auto.
  - now intros [].
  - intros k e. apply vector_single.
  - intros a a' w e R Oa Ob HR. inversion_clear Oa as [|? ? Oa1 Oa']. inversion_clear Oa' as [|? ? Oa2 _].
    inversion_clear Ob as [|? ? Ob1 Ob']. inversion_clear Ob' as [|? ? Ob2 _]. split; now apply HR.
  - intros a x Oa S. inversion_clear Oa as [|? ? Oa1 Oa']. inversion_clear Oa' as [|? ? Oa2 _]. 
    inversion_clear S as [|? ? ? ? S1 S']. inversion_clear S' as [|? ? ? ? S2 _]. split; now apply same_R.
  - intros a Oa. inversion_clear Oa as [|? ? Oa1 Oa']. inversion_clear Oa' as [|? ? Oa2 _]. repeat constructor; now apply ordinary_fin.
  - pose proof (conv_multi_reads to_vec2 vec2_of (src_multi (Moving b l)) to_vec2_of) as S. fold (conv_vec2 (src_multi (Moving b l))) in S. rewrite vec_conv in S.
    exact (vector_means_reads E vec2_of _ _ dflt S).
Qed.
Lemma sz_now E t frame : solves E -> good_pair t -> fin frame -> moment two t frame (sz_back (eval E (value_of sz t) frame)).
Proof.
  intros So G Ff. destruct t as [[x y]|b l]; [reflexivity|].
  apply (moment_of E ns2 (fun k => size_of (kf_value k)) vector_easing two sz sz_back b l (fun frame => eval E (value_of sz (Moving b l)) frame) frame); auto.
  - now intros [].
  - intros k e. apply vector_single.
  - intros a a' w e R Oa Ob HR. inversion_clear Oa as [|? ? Oa1 Oa']. inversion_clear Oa' as [|? ? Oa2 _].
    inversion_clear Ob as [|? ? Ob1 Ob']. inversion_clear Ob' as [|? ? Ob2 _]. split; now apply HR.
  - intros a x Oa S. inversion_clear Oa as [|? ? Oa1 Oa']. inversion_clear Oa' as [|? ? Oa2 _]. 
    inversion_clear S as [|? ? ? ? S1 S']. inversion_clear S' as [|? ? ? ? S2 _]. split; now apply same_R.
  - intros a Oa. inversion_clear Oa as [|? ? Oa1 Oa']. inversion_clear Oa' as [|? ? Oa2 _]. repeat constructor; now apply ordinary_fin.
  - pose proof (conv_multi_reads to_size size_of (src_multi (Moving b l)) to_size_of) as S. fold (conv_size (src_multi (Moving b l))) in S. rewrite size_conv in S.
    exact (vector_means_reads E size_of _ _ dflt S).
Qed.
Lemma spot_now E c frame : solves E -> good_cue c -> fin frame -> cue_now c frame (spot_of E c frame).
Proof.
  intros So (G1 & G2 & G3 & G4 & G5) Ff. repeat split; try (now apply num_now); [exact (pt_now E _ frame So G1 Ff)|exact (pt_now E _ frame So G2 Ff)|exact (vc_now E _ frame So G3 Ff)].
Qed.
Lemma figure_now E frame a : solves E -> good_actor a -> fin frame -> actor_now frame a (figure_of E frame a).
Proof.
  intros So (G1 & G2 & G3 & G4) Ff. repeat split; try (now apply num_now); try apply (spot_now E _ frame So G4 Ff); [exact (pt_now E _ frame So G1 Ff)|exact (sz_now E _ frame So G2 Ff)].
Qed.
Lemma poster_now E f frame : solves E -> good_film f -> fin frame -> film_now f frame (poster_of E frame f).
Proof.
  intros So G Ff. repeat split. cbn [po_sheets poster_of]. unfold good_film in G. induction G as [|s l [G1 G2] _ IH]; [constructor|]. constructor; [|exact IH].
  split; [reflexivity|]. split; [reflexivity|]. split; [now apply spot_now|]. cbn [se_figures sheet_of].
  induction G2 as [|a r Ga _ IH2]; [constructor|]. constructor; [now apply figure_now|exact IH2].
Qed.

(** ** Painting *)
Open Scope nat_scope.
Definition actor_geometry (i : actor) : geometry :=
  if ac_round i then GEllipse (mkAEllipse false (value_of pt (ac_centre i)) (value_of sz (ac_size i)))
  else GRect (mkARect false (value_of pt (ac_centre i)) (value_of sz (ac_size i)) (VFixed f0)).
Definition actor_draw (E : Ext) (i : actor) : draw :=
  mkDraw None (BrFixed (BSolid (x_color_mul_alpha E (mkColor (f64_to_f32 (ac_r i)) (f64_to_f32 (ac_g i)) (f64_to_f32 (ac_b i)) (f64_to_f32 f1)) (f64_to_f32 f1))))
    (mnum (ac_opacity i)).
Definition actor_shape (E : Ext) (i : actor) : shape :=
  ShGroup [ShGeometry (actor_geometry i); ShDraw (actor_draw E i)]
    (Some (mkGT (a_transform_into_model E (cue_tr (ac_cue i))) (mnum (cu_opacity (ac_cue i))))).
Definition act_layer (E : Ext) (s : act) : layer :=
  mkLayer "" None (a_transform_into_model E (cue_tr (ct_cue s))) (mnum (cu_opacity (ct_cue s))) f0 f0 None (ct_ip s) (ct_op s) f1 f0 [] false None
    (CShape (map (actor_shape E) (ct_actors s))).
Definition film_comp (E : Ext) (f : film) : composition :=
  mkComp (fi_in f) (fi_out f) (fi_rate f) (fi_wide f) (fi_high f) [] (map (act_layer E) (fi_acts f)).
Lemma actor_conv E i : conv_shape E (src_actor i) = Ok (Some (actor_shape E i)).
Proof.
  assert (T : conv_shape_transform E (mkTransformShape no_ge (src_cue (ac_cue i))) = Ok (mkGT (a_transform_into_model E (cue_tr (ac_cue i))) (mnum (cu_opacity (ac_cue i))))).
  { unfold conv_shape_transform. cbn [trs_t src_cue tf_r tf_p tf_sk tf_sa tf_a tf_s tf_o bind unwrap_or]. rewrite !num_conv. cbn [bind]. rewrite !pos_conv, vec_conv. reflexivity. }
  unfold src_actor, actor_shape, src_actor_outline, actor_geometry. destruct (ac_round i).
  - cbn [conv_shape conv_draw conv_geometry bind sst_o]. rewrite num_conv. cbn [bind]. rewrite T. cbn [bind]. rewrite pos_conv, size_conv. reflexivity.
  - cbn [conv_shape conv_draw conv_geometry bind sst_o]. change (conv_scalar (st f0)) with (Ok (VFixed f0)). cbn [bind]. rewrite num_conv. cbn [bind]. rewrite T. cbn [bind].
    rewrite pos_conv, size_conv. reflexivity.
Qed.
Lemma actors_conv E l : conv_shapes E (map src_actor l) = Ok (map (actor_shape E) l).
Proof. induction l as [|i l IH]; [reflexivity|]. cbn [map]. cbn [conv_shapes]. rewrite actor_conv. cbn [bind]. rewrite IH. reflexivity. Qed.
Lemma act_conv E s : conv_layer E (src_act s) = Ok (mkConverted (act_layer E s) 0 None None).
Proof.
  unfold conv_layer, src_act, setup_shape_layer, setup_layer. cbn [is_layer_hidden visual_of vl_layer sl_hd vl_ks vl_bm vl_masks].
  rewrite cue_conv. cbn [bind unwrap_or]. cbn [conv_blend_mode bind conv_masks]. rewrite actors_conv. reflexivity.
Qed.
Lemma acts_resolve E m l : forall idx, resolve m idx None (map (fun s => mkConverted (act_layer E s) 0 None None) l) = map (act_layer E) l.
Proof. induction l as [|s l IH]; intros idx; [reflexivity|]. cbn [map]. cbn [resolve]. cbn [cv_layer cv_matte act_layer ly_is_mask]. rewrite IH. reflexivity. Qed.
Lemma film_conv E f : conv_animation E (src_film f) = Ok (film_comp E f).
Proof.
  unfold conv_animation, src_film. cbn [ani_assets unwrap_or conv_assets bind ani_layers]. unfold process_layers.
  assert (M : mapM (conv_layer E) (map src_act (fi_acts f)) = Ok (map (fun s => mkConverted (act_layer E s) 0 None None) (fi_acts f))).
  { induction (fi_acts f) as [|s l IH]; [reflexivity|]. cbn [map mapM]. rewrite act_conv. cbn [bind]. rewrite IH. reflexivity. }
  rewrite M. cbn [bind]. rewrite acts_resolve. reflexivity.
Qed.
Lemma actor_eval E i frame : geometry_eval E (actor_geometry i) frame = Ok (outline_of E (figure_of E frame i)).
Proof. unfold actor_geometry, outline_of, figure_of. cbn [fg_round]. destruct (ac_round i); cbn [geometry_eval]; [|reflexivity].
  unfold a_ellipse_eval. cbn [ael_position ael_size fg_x fg_y fg_w fg_h]. destruct (eval E (value_of pt (ac_centre i)) frame). reflexivity. Qed.
Lemma film_layer E f q ly : layer_at (film_comp E f) q = Some ly -> exists s, In s (fi_acts f) /\ ly = act_layer E s.
Proof.
  destruct q as [[n|] i]; unfold layer_at, scope_layers.
  - intros H. exfalso. cbn in H. destruct i; discriminate H.
  - cbn [fst snd film_comp co_layers]. intros H. apply nth_error_In, in_map_iff in H as (s & <- & Hs). eauto.
Qed.
Lemma film_sound E f : kurbo_paths E -> sound_comp E (film_comp E f).
Proof.
  intros K. split; [|constructor]. cbn [film_comp co_layers]. apply Forall_forall. intros ly H. apply in_map_iff in H as (s & <- & _). split; [constructor|].
  cbn [ly_content act_layer]. apply Forall_forall. intros sh H. apply in_map_iff in H as (i & <- & _). cbn. split; [|split; exact I].
  intros frame. exists (outline_of E (figure_of E frame i)). split; [apply actor_eval|now apply outline_ok].
Qed.
Lemma film_clash E f : never_clash E (film_comp E f).
Proof.
  intros q ly shs H C frame tf. apply film_layer in H as (s & _ & ->). injection C as <-. unfold no_clash.
  assert (X : advance_all None (flat_map (tokens E frame tf) (map (actor_shape E) (ct_actors s))) = Some None).
  { induction (ct_actors s) as [|i l IH]; [reflexivity|]. exact IH. }
  rewrite X. discriminate.
Qed.
Lemma actor_pic E tf alpha frame i p : let g := figure_of E frame i in shape_pic E tf alpha frame (actor_shape E i) p =
  Ok (include p (mkPic [figure_outline E tf g] [(figure_style E alpha g, [figure_outline E tf g])] false true)).
Proof.
  cbv zeta. unfold actor_shape. cbn [shape_pic fold_shapes]. rewrite actor_eval. cbn [bind]. unfold add_path, include, pic_empty, group_tf, group_alpha.
  cbn [pc_outlines pc_draws gt_transform gt_opacity app fold_shapes bind]. rewrite cue_eval. reflexivity.
Qed.
Lemma actors_pic E tf alpha frame l : forall p, exists q, fold_shapes (shape_pic E tf alpha frame) (map (actor_shape E) l) p = Ok q /\
  pc_draws q = pc_draws p ++ map (fun i => (figure_style E alpha i, [figure_outline E tf i])) (map (figure_of E frame) l).
Proof.
  induction l as [|i l IH]; intros p.
  - exists p. split; [reflexivity|]. cbn [map]. now rewrite app_nil_r.
  - cbn [map fold_shapes]. rewrite actor_pic. cbn [bind]. set (g := figure_of E frame i).
    destruct (IH (include p (mkPic [figure_outline E tf g] [(figure_style E alpha g, [figure_outline E tf g])] false true))) as (q & Hq & Dq).
    exists q. split; [exact Hq|]. rewrite Dq. unfold include. cbn [pc_draws]. now rewrite <- app_assoc.
Qed.
Lemma act_frame E f set view alpha frame idx s : let t := sheet_of E frame s in
  frame_layer E (film_comp E f) set (act_layer E s) idx view alpha frame (sheet_events E view alpha frame idx t).
Proof.
  intros t. unfold sheet_events. destruct (on_show t frame) eqn:V; apply andb_true_iff in V || apply andb_false_iff in V.
  - destruct (actors_pic E (affine_mul view (put E (se_spot t))) (fdiv (fmul alpha (sp_opacity (se_spot t))) f100) frame (ct_actors s) pic_empty) as (q & Hq & Dq).
    pose proof (fl_present E (film_comp E f) set (act_layer E s) idx view alpha frame (affine_mul view (put E (se_spot t))) [] [] (map EvDraw (pic_paints E q))) as F.
    cbn [map app ly_mask_layer act_layer ly_name] in F.
    replace (flat_map _ (rev (se_figures t))) with (map EvDraw (pic_paints E q)); [apply F|].
    + exact V.
    + exists []. split; [left; constructor|]. unfold t. cbn [sheet_of se_spot]. rewrite <- cue_eval. reflexivity.
    + constructor. reflexivity.
    + constructor.
    + constructor. exact Hq.
    + unfold pic_paints. rewrite Dq. cbn [pc_draws pic_empty app]. change (map (figure_of E frame) (ct_actors s)) with (se_figures t). rewrite <- map_rev, map_map.
      induction (rev (se_figures t)) as [|i l IH]; [reflexivity|]. cbn [map List.concat flat_map]. rewrite map_app, IH. reflexivity.
  - apply fl_absent. unfold active. intros [A B]. cbn [act_layer ly_in ly_out] in A, B. cbn [t sheet_of se_ip se_op] in V. destruct V; congruence.
Qed.
Lemma acts_frame E f set view alpha frame l : frame_layers E (film_comp E f) set (map (fun x => (fst x, act_layer E (snd x))) l) view alpha frame
  (flat_map (fun x => sheet_events E view alpha frame (fst x) (sheet_of E frame (snd x))) l).
Proof. induction l as [|[i s] l IH]; [constructor|]. cbn [map flat_map fst snd]. constructor; [apply act_frame|exact IH]. Qed.
Lemma shown_acts E l : forall k, shown (combine (seq k (List.length (map (act_layer E) l))) (map (act_layer E) l)) =
  map (fun x => (fst x, act_layer E (snd x))) (rev (combine (seq k (List.length l)) l)).
Proof.
  intros k. unfold shown. rewrite map_rev. rewrite map_length.
  assert (X : combine (seq k (List.length l)) (map (act_layer E) l) = map (fun x => (fst x, act_layer E (snd x))) (combine (seq k (List.length l)) l)).
  { revert k. induction l as [|s l IH]; intros k; [reflexivity|]. cbn [List.length seq map combine fst snd]. now rewrite IH. }
  rewrite X, <- map_rev. induction (rev (combine (seq k (List.length l)) l)) as [|x r IH]; [reflexivity|]. cbn [map filter snd act_layer ly_is_mask negb]. now rewrite IH.
Qed.
Lemma acts_events E view alpha frame l : forall k,
  flat_map (fun x => sheet_events E view alpha frame (fst x) (sheet_of E frame (snd x))) (rev (combine (seq k (List.length l)) l)) =
  flat_map (fun x => sheet_events E view alpha frame (fst x) (snd x)) (rev (combine (seq k (List.length (map (sheet_of E frame) l))) (map (sheet_of E frame) l))).
Proof.
  induction l as [|s l IH]; intros k; [reflexivity|]. cbn [List.length seq combine rev map]. rewrite !flat_map_app, IH. reflexivity.
Qed.

(** ** C100 *)
(** A frame of the film is the poster of the values of that moment. *)
Theorem C100_film : forall E f, kurbo_paths E -> solves E -> good_film f -> (0 <= fi_wide f <= usize_max)%Z -> (0 <= fi_high f <= usize_max)%Z ->
  exists c, from_json E (film_json f) = Some (Ok c) /\
    forall frame view alpha r, fin frame -> used r ->
      exists p fuel r', film_now f frame p /\ render_to_vello_scene E fuel c frame view alpha r = (Ok (poster_scene E p frame view alpha), r').
Proof.
  intros E f K So G Hw Hh. exists (film_comp E f). split.
  { unfold from_json. rewrite (film_read f Hw Hh). now rewrite film_conv. }
  intros frame view alpha r Ff U. exists (poster_of E frame f).
  assert (F : frame_picture E (film_comp E f) frame view alpha ([EvPushClip view (canvas (film_comp E f))] ++
     flat_map (fun x => sheet_events E view alpha frame (fst x) (sheet_of E frame (snd x))) (rev (combine (seq 0 (List.length (fi_acts f))) (fi_acts f))) ++ [EvPop])).
  { eexists. split; [|reflexivity]. change (co_layers (film_comp E f)) with (map (act_layer E) (fi_acts f)). rewrite shown_acts. apply acts_frame. }
  apply (C67_reference E (film_comp E f) frame view alpha r _ (film_sound E f K) (film_clash E f) U) in F as (fuel & Ho & He).
  exists fuel, (r_st (append E fuel (film_comp E f) frame view alpha r)). split; [now apply poster_now|]. unfold render_to_vello_scene. rewrite Ho, He. cbn [bind]. f_equal. f_equal.
  rewrite flat_map_app, flat_map_app, acts_events, sheets_ops. reflexivity.
Qed.

(** ** On the screen *)
From Verif Require Import GeometrySpec PropGeometry FamilySpec NestSpec NestFacts PropNest.
Open Scope R_scope.
Lemma cubic_unit p q u : 0 <= p <= 1 -> 0 <= q <= 1 -> 0 <= u <= 1 -> 0 <= cubic p q u <= 1.
Proof.
  intros Hp Hq Hu. unfold cubic. set (w := 1 - u). assert (Hw : 0 <= w <= 1) by (unfold w; lra).
  assert (A : 0 <= 3 * u * w ^ 2) by (cbn [pow]; repeat apply Rmult_le_pos; lra).
  assert (B : 0 <= 3 * u ^ 2 * w) by (cbn [pow]; repeat apply Rmult_le_pos; lra).
  assert (C : 0 <= u ^ 3) by (cbn [pow]; repeat apply Rmult_le_pos; lra). assert (D : 0 <= w ^ 3) by (cbn [pow]; repeat apply Rmult_le_pos; lra).
  assert (S : 3 * u * w ^ 2 + 3 * u ^ 2 * w + u ^ 3 = 1 - w ^ 3) by (unfold w; ring).
  assert (0 <= 3 * u * w ^ 2 * p <= 3 * u * w ^ 2) by nra. assert (0 <= 3 * u ^ 2 * w * q <= 3 * u ^ 2 * w) by nra. lra.
Qed.
Lemma glides_bound {A} nums b (k l : beat A) frame x y v : 0 <= b <= 16384 -> calm_beat nums b k -> Rabs (B2R x) <= b -> Rabs (B2R y) <= b ->
  glides k l frame x y v -> usual (b + 1) v.
Proof.
  intros Hb (_ & H1 & H2) Bx By (F & z & (u & Hu & _ & Y) & V). split; [exact F|]. pose proof (cubic_unit _ _ u H1 H2 Hu) as C.
  set (c := cubic _ _ u) in *. apply Rabs_le_inv in Bx, By, Y, V. apply Rabs_le. 
  set (p := B2R x) in *. set (q := B2R y) in *. assert (M : - b <= p + (q - p) * c <= b) by (split; nra).
  assert (N : Rabs ((q - p) * (z - c)) <= (2 * b) * / 100000000) by (apply Rabs_mult_le; apply Rabs_le; lra). apply Rabs_le_inv in N.
  replace ((q - p) * z) with ((q - p) * c + (q - p) * (z - c)) in V by ring. lra.
Qed.
Lemma moment_bound {A} (nums : A -> list f64) b (part : A -> A -> (f64 -> f64 -> f64 -> Prop) -> A -> Prop) (t : track A) frame x : 0 <= b <= 16384 ->
  (forall a a' (R : f64 -> f64 -> f64 -> Prop) x (P : f64 -> Prop), (forall u v w, In u (nums a) -> In v (nums a') -> R u v w -> P w) -> part a a' R x -> Forall P (nums x)) ->
  calm nums b t -> moment part t frame x -> Forall (usual (b + 1)) (nums x).
Proof.
  intros Hb Hp C M.
  assert (W : forall a, Forall (fun x => fin x /\ Rabs (B2R x) <= b) (nums a) -> Forall (usual (b + 1)) (nums a)).
  { intros a. apply Forall_impl. intros w [F B]. split; [exact F|lra]. }
  destruct t as [a|k l]; cbn [moment calm] in M, C; [subst; now apply W|]. rewrite Forall_forall in C.
  destruct M as [(_ & ->)|[(k1 & k2 & bf & af & Ec & _ & M)|(k1 & bf & Ec & _ & M)]].
  - apply W, (C k). now left.
  - assert (C1 : calm_beat nums b k1) by (apply C; rewrite Ec; apply in_or_app; right; now left).
    assert (C2 : calm_beat nums b k2) by (apply C; rewrite Ec; apply in_or_app; right; right; now left).
    destruct (bt_hold k1); [subst; now apply W, C1|]. eapply Hp; [|exact M]. intros u v w Hu Hv G.
    destruct C1 as [C1 C1'], C2 as [C2 _]. rewrite Forall_forall in C1, C2. eapply (glides_bound nums b k1 k2); eauto; [|apply C1, Hu|apply C2, Hv].
    split; [|exact C1']. now apply Forall_forall.
  - assert (C1 : calm_beat nums b k1) by (apply C; rewrite Ec; apply in_or_app; right; now left). destruct C1 as [C1 _]. rewrite Forall_forall in C1.
    eapply Hp; [|exact M]. intros u v w Hu _ [F Ew]. destruct (C1 u Hu) as [_ B]. split; [exact F|]. rewrite Ew. lra.
Qed.
Lemma one_bound b t frame x : 0 <= b <= 16384 -> calm_number b t -> moment one t frame x -> usual (b + 1) x.
Proof.
  intros Hb C M. apply (moment_bound (fun x => [x]) b one t frame x Hb) in M; [now inversion_clear M| |exact C].
  intros a a' R w P H Q. constructor; [|constructor]. apply (H a a' w); [now left|now left|exact Q].
Qed.
Lemma two_bound b t frame x y : 0 <= b <= 16384 -> calm_pair b t -> moment two t frame (x, y) -> usual (b + 1) x /\ usual (b + 1) y.
Proof.
  intros Hb C M. apply (moment_bound (fun x => [fst x; snd x]) b two t frame (x, y) Hb) in M; [inversion_clear M as [|? ? M1 M2]; inversion_clear M2; now split| |exact C].
  intros a a' R w P H [Q1 Q2]. constructor; [|constructor; [|constructor]]; [apply (H (fst a) (fst a') (fst w))|apply (H (snd a) (snd a') (snd w))]; cbn; auto.
Qed.
Lemma usual_le a b x : a <= b -> usual a x -> usual b x. Proof. intros H [F B]. split; [exact F|lra]. Qed.
Lemma calm_spot c frame p : calm_cue c -> cue_now c frame p -> usual_spot p.
Proof.
  intros (C1 & C2 & C3 & C4) (M1 & M2 & M3 & M4 & _).
  destruct (two_bound 8191 _ _ _ _ ltac:(lra) C1 M1). destruct (two_bound 8191 _ _ _ _ ltac:(lra) C2 M2). destruct (two_bound 1599 _ _ _ _ ltac:(lra) C3 M3).
  pose proof (one_bound 16383 _ _ _ ltac:(lra) C4 M4). repeat split; try (eapply usual_le; [|eassumption]; lra); match goal with H : usual _ ?x |- fin ?x => apply H | H : usual _ ?x |- Rabs (B2R ?x) <= _ => destruct H; lra end.
Qed.
(** At every moment, the shape is drawn with the centre and size, in the place
    of its layer, that the keyframes say, to a hundredth of a pixel. *)
Theorem C100_place : forall E view alpha frame a s x i, accurate E -> plain_view view -> calm_cue (ct_cue a) -> calm_cue (ac_cue x) ->
  calm_pair 8191 (ac_centre x) -> calm_pair 8191 (ac_size x) -> act_now frame a s -> actor_now frame x i ->
  exists m b els, figure_op E view alpha s i = OpFill m b els /\ PropPoster.drawn E i els /\ finite_map m /\
    forall v, bounded_by 8192 v -> within (1 / 100) (moved m v) (moved view (rests (se_spot s) (rests (fg_spot i) v))).
Proof.
  intros E view alpha frame a s x i A V C1 C2 C3 C4 (_ & _ & N1 & _) (_ & M1 & M2 & _ & _ & _ & _ & N2).
  pose proof (calm_spot _ _ _ C1 N1) as U1. pose proof (calm_spot _ _ _ C2 N2) as U2.
  destruct (two_bound 8191 _ _ _ _ ltac:(lra) C3 M1) as [X Y]. destruct (two_bound 8191 _ _ _ _ ltac:(lra) C4 M2) as [W H].
  replace (8191 + 1) with 8192 in * by lra.
  exists (affine_mul (affine_mul view (put E (se_spot s))) (put E (fg_spot i))). eexists _, (outline_of E i). split; [reflexivity|]. split; [|split].
  - unfold PropPoster.drawn, outline_of. destruct (fg_round i).
    + eexists _, _. split; [reflexivity|]. split; (eapply near_weaken; [now apply half_of|unfold u52; lra]).
    + eexists _, _, _, _. split; [reflexivity|].
      split; [|split; [|split]]; (eapply near_weaken; [(now apply low_side) || (now apply high_side)|unfold u52; lra]).
  - apply (two_puts E view (se_spot s) (fg_spot i) (0, 0) A V U1 U2). split; cbn [fst snd]; rewrite Rabs_R0; lra.
  - intros v B. now apply two_puts.
Qed.

(** With straight handles that is at a steady pace. *)
Theorem C100_steady : forall (k l : beat f64) frame a b x, bt_out k = (f0, f0) -> bt_in k = (f1, f1) -> glides k l frame a b x ->
  Rabs (B2R x - (B2R a + (B2R b - B2R a) * ((B2R frame - B2R (bt_time k)) / (B2R (bt_time l) - B2R (bt_time k))))) <= / 1000000 + Rabs (B2R b - B2R a) * / 50000000.
Proof.
  intros k l frame a b x Ho Hi (_ & y & (u & Hu & X & Y) & V). rewrite Ho, Hi in X, Y. cbn [fst snd] in X, Y. set (w := (_ - _) / (_ - _)) in *.
  rewrite Rabs_minus_sym in Y. pose proof (triangle _ _ _ _ _ Y X) as T. apply Rle_trans with (1 := triangle _ _ _ _ _ V (Rle_refl _)). apply Rplus_le_compat_l.
  replace (_ - _) with ((B2R b - B2R a) * (y - w)) by ring. apply Rabs_mult_le; [apply Rle_refl|lra].
Qed.
(** A red disc that glides to the right and fades, in a layer that turns for
    a second and is held, before a green square that grows. *)
Definition fz := f_of_Z.
Definition beat_at {A} (t : Z) (v : A) (hold : bool) : beat A := mkBeat (fz t) v hold (flit 1 2, f0) (flit 1 2, f1).
Definition still_cue : cue := mkCue (Still (f0, f0)) (Still (f0, f0)) (Still (f100, f100)) (Still f0) (Still f100).
Definition ball : actor := mkActor true (Moving (beat_at 0 (f0, f0) false) [beat_at 30 (f100, f0) false]) (Still (fz 20, fz 20)) f1 f0 f0
  (Moving (beat_at 0 f100 false) [beat_at 60 f0 false]) still_cue.
Definition box : actor := mkActor false (Still (f0, f0)) (Moving (beat_at 10 (fz 10, fz 10) false) [beat_at 20 (fz 40, fz 30) true; beat_at 50 (f100, f100) false]) f0 f1 f0
  (Still f100) still_cue.
Definition turning : cue := mkCue (Still (f0, f0)) (Still (f100, f100)) (Still (f100, f100)) (Moving (beat_at 0 f0 false) [beat_at 30 (fz 90) true]) (Still f100).
Definition film1 : film := mkFilm f0 (fz 60) (fz 30) 200 200 [mkAct f0 (fz 60) turning [ball; box]].
Lemma ordinary_Z z : (Z.abs z <= 1048576)%Z -> ordinary_number (fz z).
Proof.
  intros H. destruct (f_of_Z_R z ltac:(lia)) as [R1 F1]. split; [exact F1|]. unfold fz. rewrite R1, <- abs_IZR. now apply IZR_le.
Qed.
Lemma beat_good {A} nums t (v : A) h : (Z.abs t <= 1048576)%Z -> Forall ordinary_number (nums v) -> good_beat nums (beat_at t v h).
Proof.
  intros Ht Hv. destruct (ordinary_Z t Ht) as [F B]. assert (H2 : fin (flit 1 2) /\ B2R (flit 1 2) = 1 / 2) by (split; [reflexivity|exact half_R0]).
  destruct H2 as [F2 R2]. destruct (ordinary_Z 1 ltac:(lia)) as [F1 _]. assert (R1 : B2R f1 = 1) by (destruct (f_of_Z_R 1 ltac:(lia)) as [X _]; exact X).
  assert (R0 : B2R f0 = 0) by reflexivity.
  unfold good_beat, beat_at. cbn [bt_time bt_value bt_out bt_in fst snd]. split; [exact F|]. split; [exact B|]. split; [exact Hv|].
  rewrite R2, R1, R0. split; [split; [exact F2|rewrite Rabs_pos_eq; lra]|]. split; [split; [reflexivity|rewrite Rabs_R0; lra]|].
  split; [split; [exact F2|rewrite Rabs_pos_eq; lra]|]. split; [reflexivity|rewrite Rabs_pos_eq; lra].
Qed.
Lemma order2 {A} (a b : beat A) : B2R (bt_time a) < B2R (bt_time b) ->
  forall k k' bf bt af, [a; b] = bf ++ k :: bt ++ k' :: af -> B2R (bt_time k) < B2R (bt_time k').
Proof.
  intros L k k' bf bt af Ec. destruct bf as [|? [|? bf]], bt as [|? bt]; cbn in Ec; try discriminate; try (injection Ec as ? ?; subst; exact L);
    try (injection Ec; intros; now destruct bt); try (injection Ec; intros; now destruct bf).
Qed.
Lemma order3 {A} (a b c : beat A) : B2R (bt_time a) < B2R (bt_time b) -> B2R (bt_time b) < B2R (bt_time c) ->
  forall k k' bf bt af, [a; b; c] = bf ++ k :: bt ++ k' :: af -> B2R (bt_time k) < B2R (bt_time k').
Proof.
  intros L1 L2 k k' bf bt af Ec. destruct bf as [|y bf].
  - injection Ec as -> Ec. destruct bt as [|z bt]; [injection Ec as -> _; exact L1|]. injection Ec as _ Ec. destruct bt as [|? bt]; [injection Ec as -> _; lra|].
    injection Ec as _ Ec. now destruct bt.
  - injection Ec as _ Ec. eapply (order2 b c L2); exact Ec.
Qed.
Lemma film1_ok : good_film film1.
Proof.
  assert (O2 : forall x y, (Z.abs x <= 1048576)%Z -> (Z.abs y <= 1048576)%Z -> Forall ordinary_number [fz x; fz y]) by (intros; constructor; [now apply ordinary_Z|constructor; [now apply ordinary_Z|constructor]]).
  assert (O1 : forall x, (Z.abs x <= 1048576)%Z -> Forall ordinary_number [fz x]) by (intros; constructor; [now apply ordinary_Z|constructor]).
  assert (L : forall x y, (Z.abs x <= 1048576)%Z -> (Z.abs y <= 1048576)%Z -> (x < y)%Z -> B2R (fz x) < B2R (fz y)).
  { intros x y Hx Hy H. unfold fz. destruct (f_of_Z_R x ltac:(lia)) as [-> _]. destruct (f_of_Z_R y ltac:(lia)) as [-> _]. now apply IZR_lt. }
  assert (T2 : forall A (nums : A -> list f64) x y v w h h', (Z.abs x <= 1048576)%Z -> (Z.abs y <= 1048576)%Z -> (x < y)%Z -> Forall ordinary_number (nums v) -> Forall ordinary_number (nums w) ->
    good_track nums (Moving (beat_at x v h) [beat_at y w h'])).
  { intros A nums x y v w h h' Hx Hy H Hv Hw. split; [constructor; [now apply beat_good|constructor; [now apply beat_good|constructor]]|].
    apply order2, L; assumption. }
  assert (S : good_cue still_cue) by (repeat split).
  constructor; [|constructor]. split.
  - split; [exact I|]. split; [exact I|]. split; [exact I|]. split; [|exact I]. apply T2; [lia|lia|lia|apply (O1 0%Z)|apply (O1 90%Z)]; lia.
  - constructor; [|constructor; [|constructor]].
    + split; [|split; [exact I|split; [|exact S]]]; apply T2; try lia; [apply (O2 0%Z 0%Z)|apply (O2 100%Z 0%Z)|apply (O1 100%Z)|apply (O1 0%Z)]; lia.
    + split; [exact I|]. split; [|split; [exact I|exact S]]. split.
      * constructor; [|constructor; [|constructor; [|constructor]]]; apply beat_good; try lia; [apply (O2 10%Z 10%Z)|apply (O2 40%Z 30%Z)|apply (O2 100%Z 100%Z)]; lia.
      * apply order3; apply L; lia.
Qed.
Example C100_applies : good_film film1 /\ (0 <= fi_wide film1 <= usize_max)%Z /\ calm_cue turning /\ calm_cue (ac_cue ball) /\
  calm_pair 8191 (ac_centre ball) /\ calm_pair 8191 (ac_size box) /\ solves E_solves /\
  (exists x, moment one (cu_rotation turning) (fz 45) x /\ B2R x = 90) /\
  (forall x, moment one (cu_rotation turning) (fz 45) x -> B2R x = 90) /\
  (forall x y, moment two (ac_size box) (fz 30) (x, y) -> B2R x = 40 /\ B2R y = 30).
Proof.
  assert (Z0 : forall z, (Z.abs z <= 1048576)%Z -> fin (fz z) /\ B2R (fz z) = IZR z) by (intros z Hz; destruct (f_of_Z_R z ltac:(lia)); now split).
  assert (N : forall b z, (Z.abs z <= 1048576)%Z -> IZR (Z.abs z) <= b -> fin (fz z) /\ Rabs (B2R (fz z)) <= b).
  { intros b z Hz Hb. destruct (Z0 z Hz) as [F R1]. split; [exact F|]. now rewrite R1, <- abs_IZR. }
  assert (B : forall A (nums : A -> list f64) b t v h, Forall (fun x => fin x /\ Rabs (B2R x) <= b) (nums v) -> calm_beat nums b (beat_at t v h)).
  { intros A nums b t v h H. split; [exact H|]. cbn [beat_at bt_out bt_in snd]. assert (R1 : B2R f1 = 1) by (destruct (Z0 1%Z ltac:(lia)) as [_ X]; exact X).
    rewrite R1. change (B2R f0) with 0. lra. }
  assert (P : forall b x y, (Z.abs x <= 1048576)%Z -> (Z.abs y <= 1048576)%Z -> IZR (Z.abs x) <= b -> IZR (Z.abs y) <= b -> Forall (fun x => fin x /\ Rabs (B2R x) <= b) [fz x; fz y]).
  { intros. constructor; [now apply N|constructor; [now apply N|constructor]]. }
  assert (Q : forall b x, (Z.abs x <= 1048576)%Z -> IZR (Z.abs x) <= b -> Forall (fun x => fin x /\ Rabs (B2R x) <= b) [fz x]).
  { intros. constructor; [now apply N|constructor]. }
  assert (T : forall t z h (A : Type) (v : A), (Z.abs z <= 1048576)%Z -> t = z -> B2R (bt_time (beat_at t v h)) = IZR z) by (intros t z h A v Hz ->; now apply Z0).
  split; [exact film1_ok|]. split; [cbn [fi_wide film1]; unfold usize_max; lia|].
  split. { split; [apply (P 8191 0%Z 0%Z); cbn; lra || lia|]. split; [apply (P 8191 100%Z 100%Z); cbn; lra || lia|]. split; [apply (P 1599 100%Z 100%Z); cbn; lra || lia|].
    constructor; [|constructor; [|constructor]]; apply B; [apply (Q 16383 0%Z)|apply (Q 16383 90%Z)]; cbn; lra || lia. }
  split. { split; [apply (P 8191 0%Z 0%Z); cbn; lra || lia|]. split; [apply (P 8191 0%Z 0%Z); cbn; lra || lia|]. split; [apply (P 1599 100%Z 100%Z); cbn; lra || lia|]. apply (Q 16383 0%Z); cbn; lra || lia. }
  split. { constructor; [|constructor; [|constructor]]; apply B; [apply (P 8191 0%Z 0%Z)|apply (P 8191 100%Z 0%Z)]; cbn; lra || lia. }
  split. { constructor; [|constructor; [|constructor; [|constructor]]]; apply B; [apply (P 8191 10%Z 10%Z)|apply (P 8191 40%Z 30%Z)|apply (P 8191 100%Z 100%Z)]; cbn; lra || lia. }
  split; [exact E_solves_ok|].
  assert (W : forall x, moment one (cu_rotation turning) (fz 45) x -> B2R x = 90).
  { intros x M. cbn [turning cu_rotation moment] in M. destruct (Z0 45%Z ltac:(lia)) as [_ R45]. rewrite R45 in M.
    destruct M as [[M _]|[(k & k' & bf & af & Ec & [M1 M2] & _)|(k & bf & Ec & _ & M)]].
    - rewrite (T 0%Z 0%Z) in M; [lra|lia|reflexivity].
    - exfalso. assert (k' = beat_at 30 (fz 90) true) as ->; [|rewrite (T 30%Z 30%Z) in M2; [lra|lia|reflexivity]].
      revert Ec. generalize (beat_at 0 f0 false) (beat_at 30 (fz 90) true). intros u v Ec. destruct bf as [|? [|? bf]]; cbn in Ec; [now injection Ec|discriminate|now destruct bf].
    - assert (k = beat_at 30 (fz 90) true) as ->; [|destruct M as [_ ->]; apply Z0; lia].
      revert Ec. generalize (beat_at 0 f0 false) (beat_at 30 (fz 90) true). intros u v Ec. destruct bf as [|? [|? bf]]; cbn in Ec; [discriminate|now injection Ec|now destruct bf]. }
  split. { pose proof (num_now E_solves (cu_rotation turning) (fz 45) E_solves_ok) as M. eexists. split; [apply M|apply W, M].
    - pose proof film1_ok as G. inversion_clear G as [|? ? [G1 _] _]. apply G1. - apply Z0; lia. - pose proof film1_ok as G. inversion_clear G as [|? ? [G1 _] _]. apply G1. - apply Z0; lia. }
  split; [exact W|]. intros x y M. cbn [box ac_size moment] in M. destruct (Z0 30%Z ltac:(lia)) as [_ R30]. rewrite R30 in M.
  destruct M as [[M _]|[(k & k' & bf & af & Ec & [M1 M2] & M)|(k & bf & Ec & M & _)]].
  - rewrite (T 10%Z 10%Z) in M; [lra|lia|reflexivity].
  - assert (Hk : k = beat_at 20 (fz 40, fz 30) true \/ k' = beat_at 20 (fz 40, fz 30) true).
    { clear - Ec. revert Ec. generalize (beat_at 10 (fz 10, fz 10) false) (beat_at 20 (fz 40, fz 30) true) (beat_at 50 (f100, f100) false). intros u v w Ec.
      destruct bf as [|? [|? [|? bf]]]; cbn in Ec; [right; now injection Ec|left; now injection Ec|discriminate|now destruct bf]. }
    destruct Hk as [->| ->]; [|rewrite (T 20%Z 20%Z) in M2; [lra|lia|reflexivity]].
    cbn [beat_at bt_hold bt_value] in M. assert (x = fz 40 /\ y = fz 30) as [-> ->]; [|split; apply Z0; lia]. revert M. generalize (fz 40) (fz 30). intros u v M. now injection M.
  - exfalso. assert (k = beat_at 50 (f100, f100) false) as ->; [|rewrite (T 50%Z 50%Z) in M; [lra|lia|reflexivity]].
    clear - Ec. revert Ec. generalize (beat_at 10 (fz 10, fz 10) false) (beat_at 20 (fz 40, fz 30) true) (beat_at 50 (f100, f100) false). intros u v w Ec.
    destruct bf as [|? [|? [|? bf]]]; cbn in Ec; [discriminate|discriminate|now injection Ec|now destruct bf].
Qed.
