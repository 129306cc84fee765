(** The same for whole films. *)
From Coq Require Import ZArith Reals Bool List Arith String Ascii Lia Permutation.
From Flocq Require Import Core BinarySingleNaN.
From Verif Require Import F64 F64Facts Kurbo Value Animated Schema Import Serde SerdeSpec SerdeFacts Render RenderSpec.
From Verif Require Import PropPoster FilmSpec PropFilm AlikeSpec FileFacts.
Import ListNotations.
Local Open Scope string_scope.
Local Open Scope list_scope.

Lemma map_alike {A B} (f : A -> json) (d : json -> option B) (g : A -> B) l l' : (forall x j, alike (f x) j -> d j = Some (g x)) ->
  Forall2 alike (map f l) l' -> Serde.mapO d l' = Some (map g l).
Proof.
  intros D. revert l'. induction l as [|x l IH]; intros l' F; inversion F as [|a b c e A1 A2]; subst; [reflexivity|]. cbn. rewrite (D _ _ A1), (IH _ A2). reflexivity.
Qed.
Lemma moving_alike {A} (nums : A -> list f64) (rd : forall k j, alike (beat_json nums k) j -> de_keyframe j = Some (src_beat nums k)) {T} (f : json -> option T) l l' :
  Forall2 alike (map (beat_json nums) l) l' -> de_anim_prop f [("k", JArr l')] = Some (mkAnimProp None None None None (AkAnimated (map (src_beat nums) l))).
Proof. intros F. rewrite only_k. unfold de_anim_k. cbn [de_list]. rewrite (map_alike _ _ _ l l' rd F). reflexivity. Qed.
Lemma num_alike t j : alike (number_track t) j -> (exists v, j = JObj [("k", v)]) /\ de_float_value j = Some (src_num t).
Proof.
  destruct t as [x|b l]; unfold number_track, number_json; intros A.
  - open. split; [eauto|]. numbers; reflexivity.
  - apply alike_obj in A as (m & -> & A). inversion A as [|a m' c e [E1 E2] A2]; subst. inversion A2; subst. destruct m' as [k v]. cbn [fst snd] in *. subst k.
    apply alike_arr in E2 as (l' & -> & F). split; [eauto|]. exact (moving_alike ns1 beat1_alike de_f64 (b :: l) l' F).
Qed.
Lemma multi_alike t j : alike (pair_track t) j -> (exists v, j = JObj [("k", v)]) /\ de_multi_dim j = Some (src_multi t).
Proof.
  destruct t as [[x y]|b l]; unfold pair_track, pair_json; cbn [fst snd]; intros A.
  - open. split; [eauto|]. numbers; reflexivity.
  - apply alike_obj in A as (m & -> & A). inversion A as [|a m' c e [E1 E2] A2]; subst. inversion A2; subst. destruct m' as [k v]. cbn [fst snd] in *. subst k.
    apply alike_arr in E2 as (l' & -> & F). split; [eauto|].
    assert (K : forall j, de_multi_dim (JObj [("k", j)]) = match de_anim_prop de_floats [("k", j)] with Some p => Some (mkMultiDim p None) | None => None end) by reflexivity.
    rewrite K. change (fun x : pair => [fst x; snd x]) with ns2 in F. rewrite (moving_alike ns2 beat2_alike de_floats (b :: l) l' F). reflexivity.
Qed.
Lemma pos_alike t j : alike (pair_track t) j -> (exists v, j = JObj [("k", v)]) /\ de_position j = Some (src_pos t).
Proof.
  destruct t as [[x y]|b l]; unfold pair_track, pair_json; cbn [fst snd]; intros A.
  - open. split; [eauto|]. numbers; reflexivity.
  - apply alike_obj in A as (m & -> & A). inversion A as [|a m' c e [E1 E2] A2]; subst. inversion A2; subst. destruct m' as [k v]. cbn [fst snd] in *. subst k.
    apply alike_arr in E2 as (l' & -> & F). split; [eauto|]. change (fun x : pair => [fst x; snd x]) with ns2 in F.
    assert (K : forall j, de_position (JObj [("k", j)]) = match de_position_k j with Some k => Some (mkSPosition None None None None k) | None => None end) by reflexivity.
    rewrite K. unfold de_position_k. pose proof (map_alike (beat_json ns2) de_pos_keyframe _ (b :: l) l' beat_pos_alike F) as H.
    match goal with |- context [de_list ?d ?j] => replace (de_list d j) with (Some (map (fun k => mkPosKeyframe (src_beat ns2 k) None None) (b :: l))) by (symmetry; exact H) end.
    reflexivity.
Qed.
(** The members of a cue, read. *)
Definition reads_cue (c : cue) (l : list (string * json)) : Prop :=
  exists ja jp js jr jo, l = [("a", JObj [("k", ja)]); ("p", JObj [("k", jp)]); ("s", JObj [("k", js)]); ("r", JObj [("k", jr)]); ("o", JObj [("k", jo)])] /\
    de_position (JObj [("k", ja)]) = Some (src_pos (cu_anchor c)) /\ de_position (JObj [("k", jp)]) = Some (src_pos (cu_position c)) /\
    de_multi_dim (JObj [("k", js)]) = Some (src_multi (cu_scale c)) /\ de_float_value (JObj [("k", jr)]) = Some (src_num (cu_rotation c)) /\
    de_float_value (JObj [("k", jo)]) = Some (src_num (cu_opacity c)).
Lemma cue_alike c l : Forall2 alikem (cue_members c) l -> reads_cue c l.
Proof.
  destruct c as [a p s r o]. unfold cue_members. cbn [cu_anchor cu_position cu_scale cu_rotation cu_opacity]. intros F.
  repeat match goal with
  | H : Forall2 _ [] _ |- _ => inversion H; subst; clear H
  | H : Forall2 _ (_ :: _) _ |- _ => inversion H; subst; clear H
  | H : alikem (_, _) ?m |- _ => destruct m as [? ?]; destruct H as [H ?]; cbn [fst snd] in *; subst
  end.
  repeat match goal with
  | H : alike (pair_track s) _ |- _ => apply multi_alike in H as [[? ->] ?]
  | H : alike (pair_track _) _ |- _ => apply pos_alike in H as [[? ->] ?]
  | H : alike (number_track _) _ |- _ => apply num_alike in H as [[? ->] ?]
  end.
  unfold reads_cue. cbn [cu_anchor cu_position cu_scale cu_rotation cu_opacity]. eexists _, _, _, _, _. split; [reflexivity|]. auto.
Qed.
Ltac tracks :=
  repeat match goal with
  | H : Forall2 _ (cue_members _) _ |- _ => apply cue_alike in H as (? & ? & ? & ? & ? & -> & ? & ? & ? & ? & ?)
  | H : alike (number_track _) _ |- _ => apply num_alike in H as [[? ->] ?]
  end.
Ltac known := repeat match goal with H : de_position _ = Some _ |- _ => rewrite H; clear H | H : de_multi_dim _ = Some _ |- _ => rewrite H; clear H
  | H : de_float_value _ = Some _ |- _ => rewrite H; clear H | H : de_color_value _ = Some _ |- _ => rewrite H; clear H end.
Lemma actor_alike i j : alike (actor_json i) j -> de_shape false j = Some (src_actor i).
Proof.
  destruct i as [rd ce sz r g b o [ca cp cs cr co]]. unfold actor_json, src_actor, actor_outline_json, src_actor_outline, actor_fill_json.
  cbn [ac_round ac_centre ac_size ac_r ac_g ac_b ac_opacity ac_cue]. set (col := JObj [("k", JArr [JFloat r; JFloat g; JFloat b])]).
  assert (C : forall j, alike col j -> (exists v, j = JObj [("k", v)]) /\ de_color_value j = Some (st [r; g; b])).
  { intros j' A. unfold col in A. open. split; [eauto|]. numbers; reflexivity. }
  assert (Z : forall j, alike (number_json f0) j -> (exists v, j = JObj [("k", v)]) /\ de_float_value j = Some (st f0)) by (intros j'; apply (num_alike (Still f0))).
  clearbody col. destruct rd; intros A; open; tracks;
  repeat match goal with
  | H : alike col _ |- _ => apply C in H as [[? ->] ?]
  | H : alike (number_json f0) _ |- _ => apply Z in H as [[? ->] ?]
  | H : alike (pair_track ce) _ |- _ => apply pos_alike in H as [[? ->] ?]
  | H : alike (pair_track sz) _ |- _ => apply multi_alike in H as [[? ->] ?]
  end; clear C Z; unfold src_cue; cbn [cu_anchor cu_position cu_scale cu_rotation cu_opacity] in *;
  lazy - [f0 de_position de_multi_dim de_float_value de_color_value src_pos src_multi src_num st]; known; reflexivity.
Qed.
Lemma act_alike s j : alike (act_json s) j -> de_layer j = Some (src_act s).
Proof.
  destruct s as [ip op [ca cp cs cr co] l]. unfold act_json, src_act, src_cue. cbn [ct_ip ct_op ct_cue ct_actors cu_anchor cu_position cu_scale cu_rotation cu_opacity].
  set (acts := map actor_json l). assert (H : forall l', Forall2 alike acts l' -> mapO (de_shape false) l' = Some (map src_actor l)) by (intros l'; apply map_alike; apply actor_alike).
  clearbody acts. intros A. open. tracks. cbn [cu_anchor cu_position cu_scale cu_rotation cu_opacity] in *.
  match goal with F : Forall2 alike acts _ |- _ => apply H in F; rename F into G end. clear H.
  match goal with |- context [map src_actor l] => set (r := map src_actor l) in * end. clearbody r.
  numbers; lazy - [f0 f_of_Z de_position de_multi_dim de_float_value src_pos src_multi src_num de_shape mapO]; known; rewrite G; reflexivity.
Qed.
Lemma film_alike f j : (0 <= fi_wide f <= usize_max)%Z -> (0 <= fi_high f <= usize_max)%Z -> alike (film_json f) j -> de_animation j = Some (src_film f).
Proof.
  intros Hw Hh A. destruct f as [fin fout rate w h acts]. unfold film_json, src_film in *. cbn [fi_in fi_out fi_rate fi_wide fi_high fi_acts] in *.
  assert (U : forall z, (0 <= z <= usize_max)%Z -> de_uint usize_max (JInt z) = Some z).
  { intros z Hz. unfold de_uint. destruct (Z.leb_spec 0 z), (Z.leb_spec z usize_max); try lia. reflexivity. }
  apply U in Hw. apply U in Hh. clear U. set (layers := map act_json acts) in *.
  assert (H : forall l', Forall2 alike layers l' -> mapO de_layer l' = Some (map src_act acts)) by (intros l'; apply map_alike; apply act_alike).
  clearbody layers. open. match goal with F : Forall2 alike layers _ |- _ => apply H in F; rename F into G end. clear H.
  unfold de_animation. unfold de_uint in Hw, Hh. numbers; cbn; rewrite G, Hw, Hh; reflexivity.
Qed.
