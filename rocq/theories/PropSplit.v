(** C106: a position given coordinate by coordinate. *)
From Coq Require Import ZArith Bool List Arith String Lia.
From Flocq Require Import Core BinarySingleNaN.
From Verif Require Import F64 Kurbo Value Animated Batch Render RenderSpec Examples Schema TimelineSpec Import ImportSpec ImportFacts PropValue.
Import ListNotations.
Close Scope string_scope.
Open Scope list_scope.

(** A handle with one [x] and one [y], each written as a number or as a list of one. *)
Definition handle_is (h : kf_handle) (x y : f64) : Prop :=
  (kh_x h = KcSingle x \/ kh_x h = KcArray [x]) /\ (kh_y h = KcSingle y \/ kh_y h = KcArray [y]).
Definition same_handle (h h' : option kf_handle) : Prop :=
  match h, h' with
  | Some a, Some b => exists x y, handle_is a x y /\ handle_is b x y
  | None, None => True
  | _, _ => False
  end.
(** Two keyframes at the same time, with the same easing: both handles or none. *)
Definition same_moment (b b' : kf_base) : Prop :=
  kb_time b = kb_time b' /\ kb_hold b = kb_hold b' /\
  same_handle (kb_in b) (kb_in b') /\ same_handle (kb_out b) (kb_out b') /\ (kb_in b = None <-> kb_out b = None).
(** A keyframe of the pair, and one of each coordinate. *)
Definition pairs_up (k kx ky : keyframe) : Prop :=
  same_moment (kf_b k) (kf_b kx) /\ same_moment (kf_b k) (kf_b ky) /\
  exists x y r rx ry, kf_value k = x :: y :: r /\ kf_value kx = x :: rx /\ kf_value ky = y :: ry.
Inductive all_pair_up : list pos_keyframe -> list keyframe -> list keyframe -> Prop :=
| pair_none : all_pair_up [] [] []
| pair_more k ks kx xs ky ys : pairs_up (pk_kf k) kx ky -> all_pair_up ks xs ys ->
    all_pair_up (k :: ks) (kx :: xs) (ky :: ys).
(** The position [p] and the split position [s] say the same. *)
Definition says_same (p : s_position) (s : split_vector) : Prop :=
  match po_k p, ap_k (spv_x s), ap_k (spv_y s) with
  | PkStatic l, AkStatic x, AkStatic y => exists r, l = x :: y :: r
  | PkAnimated ks, AkAnimated xs, AkAnimated ys => all_pair_up ks xs ys
  | _, _, _ => False
  end.

Lemma handle_collects h x y : handle_is h x y -> collect_tangents (Some h) = [mkHandle x y] /\ conv_keyframe_handle h = Ok (mkHandle x y).
Proof.
  destruct h as [a b]. intros [A B]. cbn [kh_x kh_y] in A, B. unfold conv_keyframe_handle, collect_tangents. cbn [kh_x kh_y].
  destruct A as [-> | ->], B as [-> | ->]; split; reflexivity.
Qed.
(** The time of the keyframes of all three. *)
Lemma moment_times b b' : same_moment b b' -> exists t, conv_time b' = Ok t /\
  forall T (f : list f64 -> T) v e, conv_keyframe f (mkKeyframe b v e) = [(t, f v)].
Proof.
  intros (Ht & Hh & Hi & Ho & N). unfold conv_time, conv_keyframe, hold_of. cbn [kf_b kf_value]. rewrite <- Ht, <- Hh.
  destruct (kb_in b) as [i|], (kb_in b') as [i'|]; cbn [same_handle] in Hi; try contradiction;
    destruct (kb_out b) as [o|], (kb_out b') as [o'|]; cbn [same_handle] in Ho; try contradiction;
    try (exfalso; destruct N as [N1 N2]; (discriminate (N1 eq_refl) || discriminate (N2 eq_refl))).
  - destruct Hi as (x & y & A & B), Ho as (x' & y' & C & D).
    destruct (handle_collects _ _ _ A) as [Ca _], (handle_collects _ _ _ B) as [_ Cb].
    destruct (handle_collects _ _ _ C) as [Cc _], (handle_collects _ _ _ D) as [_ Cd].
    cbn [mapO]. rewrite Cb, Cd, Ca, Cc. eexists. split; [reflexivity|]. intros. reflexivity.
  - eexists. split; [reflexivity|]. intros. reflexivity.
Qed.
Lemma all_times ks xs ys : all_pair_up ks xs ys -> exists ts vx vy,
  mapM conv_scalar_kf xs = Ok (combine ts vx) /\ mapM conv_scalar_kf ys = Ok (combine ts vy) /\
  List.length ts = List.length vx /\ List.length ts = List.length vy /\
  flat_map (conv_keyframe to_point) (map pk_kf ks) = combine ts (map (fun q => mkPoint (fst q) (snd q)) (combine vx vy)).
Proof.
  induction 1 as [|k ks kx xs ky ys (Mx & My & x & y & r & rx & ry & Vk & Vx & Vy) _ (ts & vx & vy & A & B & C & D & F)].
  { exists [], [], []. repeat split; reflexivity. }
  destruct (moment_times _ _ Mx) as (t & Tx & Kx). destruct (moment_times _ _ My) as (t' & Ty & Ky).
  destruct (pk_kf k) as [b v e] eqn:Q. cbn [kf_b kf_value] in *.
  assert (t' = t) as ->. { specialize (Kx _ to_point v e). rewrite Ky in Kx. congruence. }
  exists (t :: ts), (x :: vx), (y :: vy). cbn [map flat_map combine List.length mapM fst snd].
  split; [|split; [|split; [now rewrite C|split; [now rewrite D|]]]].
  - unfold conv_scalar_kf at 1. rewrite Vx. cbn [index nth_error bind]. rewrite Tx. cbn [bind]. rewrite A. reflexivity.
  - unfold conv_scalar_kf at 1. rewrite Vy. cbn [index nth_error bind]. rewrite Ty. cbn [bind]. rewrite B. reflexivity.
  - rewrite Q, Kx, F, Vk. reflexivity.
Qed.

Lemma map_fst_combine {A B} (l : list A) : forall m : list B, List.length l = List.length m -> map fst (combine l m) = l.
Proof. induction l as [|a l IH]; intros [|b m] H; try discriminate; [reflexivity|]. cbn. f_equal. apply IH. now injection H. Qed.
Lemma map_snd_combine {A B} (l : list A) : forall m : list B, List.length l = List.length m -> map snd (combine l m) = m.
Proof. induction l as [|a l IH]; intros [|b m] H; try discriminate; [reflexivity|]. cbn. f_equal. apply IH. now injection H. Qed.
Lemma nth_pair (vx : list f64) : forall vy i, List.length vx = List.length vy ->
  nth_error (map (fun q : f64 * f64 => mkPoint (fst q) (snd q)) (combine vx vy)) i =
  match nth_error vx i, nth_error vy i with Some x, Some y => Some (mkPoint x y) | _, _ => None end /\
  (nth_error vx i = None <-> nth_error vy i = None).
Proof.
  induction vx as [|x vx IH]; intros [|y vy] i H; try discriminate.
  - destruct i; split; try reflexivity; split; reflexivity.
  - destruct i as [|i]; cbn; [split; [reflexivity|split; discriminate]|]. apply IH. now injection H.
Qed.
Lemma eval_pair E ts vx vy frame : List.length ts = List.length vx -> List.length ts = List.length vy ->
  eval E (VAnimated (mkAnim ts (map (fun q => mkPoint (fst q) (snd q)) (combine vx vy)))) frame =
  mkPoint (eval E (VAnimated (mkAnim ts vx)) frame) (eval E (VAnimated (mkAnim ts vy)) frame).
Proof.
  intros Hx Hy. assert (L : List.length vx = List.length vy) by congruence.
  unfold eval, anim_eval_or, anim_eval_inner. cbn [an_times an_values].
  destruct (frames_and_weight ts frame) as [[[[[i0 i1] t] e] hold]|]; [|reflexivity].
  destruct (nth_pair vx vy i0 L) as [-> [A B]]. destruct (nth_pair vx vy i1 L) as [-> [C D]].
  destruct (nth_error vx i0), (nth_error vy i0); try (now discriminate (A eq_refl)); try (now discriminate (B eq_refl));
    destruct (nth_error vx i1), (nth_error vy i1); try (now discriminate (C eq_refl)); try (now discriminate (D eq_refl)); reflexivity.
Qed.
Lemma position_pair E p s : says_same p s -> exists x y, conv_scalar (spv_x s) = Ok x /\ conv_scalar (spv_y s) = Ok y /\
  forall frame, eval E (conv_pos_point p) frame = mkPoint (eval E x frame) (eval E y frame).
Proof.
  unfold says_same, conv_scalar, conv_pos_point, conv_pos.
  destruct (po_k p) as [ks|l], (ap_k (spv_x s)) as [xs|x], (ap_k (spv_y s)) as [ys|y]; try contradiction.
  - intros H. destruct (all_times _ _ _ H) as (ts & vx & vy & A & B & C & D & F). rewrite A, B. cbn [bind].
    do 2 eexists. split; [reflexivity|]. split; [reflexivity|]. intros frame. unfold conv_keyframes. rewrite F.
    assert (L : List.length ts = List.length (map (fun q : f64 * f64 => mkPoint (fst q) (snd q)) (combine vx vy))).
    { rewrite map_length, combine_length. lia. }
    rewrite !map_fst_combine, !map_snd_combine by assumption. now apply eval_pair.
  - intros [r ->]. do 2 eexists. split; [reflexivity|]. split; [reflexivity|]. reflexivity.
Qed.

(** A layer whose position is given by its coordinates is imported exactly
    when it is with the pair, with the same opacity, and is at the same place
    in every frame. *)
Theorem C106_same : forall E p s an sc ro sk sa op, says_same p s ->
  let joined := mkSTransform an (ApPosition p) sc ro sk sa op in
  let split := mkSTransform an (ApSplit s) sc ro sk sa op in
  (forall t o, conv_transform E joined = Ok (t, o) ->
     exists t', conv_transform E split = Ok (t', o) /\ forall frame, transform_eval E t' frame = transform_eval E t frame) /\
  (forall t o, conv_transform E split = Ok (t, o) -> exists t', conv_transform E joined = Ok (t', o)).
Proof.
  intros E p s an sc ro sk sa op H joined split. destruct (position_pair E p s H) as (x & y & Hx & Hy & Ev).
  unfold conv_transform, joined, split. cbn [tf_a tf_p tf_s tf_r tf_sk tf_sa tf_o]. rewrite Hx, Hy. cbn [bind].
  destruct ro as [[r|? ? ? ?]|]; cbn [bind]; [|split; intros; discriminate|split; intros; discriminate].
  destruct (conv_scalar r); cbn [bind]; [|split; intros; discriminate|split; intros; discriminate].
  destruct (conv_scalar (unwrap_or sk float_value_zero)); cbn [bind]; [|split; intros; discriminate|split; intros; discriminate].
  destruct (conv_scalar (unwrap_or sa float_value_zero)); cbn [bind]; [|split; intros; discriminate|split; intros; discriminate].
  destruct (conv_scalar (unwrap_or op float_value_one_hundred)); cbn [bind]; [|split; intros; discriminate|split; intros; discriminate].
  split; intros t o Q; injection Q as <- <-; [|eauto].
  eexists. split; [reflexivity|]. intros frame. rewrite !C28_transform. unfold a_transform_eval, position_eval.
  cbn [at_anchor at_position at_rotation at_scale at_skew at_skew_angle]. now rewrite Ev.
Qed.

(** From (0, 1) to (1, 0) with one easing, written for the pair with lists and
    for the coordinates with numbers. *)
Definition ease_list : kf_handle := mkKfHandle (KcArray [f_half]) (KcArray [f1]).
Definition ease_number : kf_handle := mkKfHandle (KcSingle f_half) (KcSingle f1).
Definition key (h : kf_handle) (t : f64) (v : list f64) : keyframe := mkKeyframe (mkKfBase t None (Some h) (Some h)) v None.
Example C106_applies : forall E, exists p s t o,
  says_same p s /\ conv_transform E (mkSTransform None (ApPosition p) None (Some (ArRotation float_value_zero)) None None None) = Ok (t, o) /\
  position_is_fixed (PosValue (conv_pos_point p)) = false.
Proof.
  intros E.
  exists (mkSPosition None None None None (PkAnimated [mkPosKeyframe (key ease_list f0 [f0; f1]) None None; mkPosKeyframe (key ease_list f100 [f1; f0]) None None])).
  exists (mkSplitVector true (mkAnimProp None None None None (AkAnimated [key ease_number f0 [f0]; key ease_number f100 [f1]]))
                             (mkAnimProp None None None None (AkAnimated [key ease_number f0 [f1]; key ease_number f100 [f0]])) None).
  do 2 eexists. split; [|split; [reflexivity|reflexivity]]. unfold says_same. cbn [po_k ap_k spv_x spv_y].
  assert (M : forall t, same_moment (mkKfBase t None (Some ease_list) (Some ease_list)) (mkKfBase t None (Some ease_number) (Some ease_number))).
  { intros t. assert (S : same_handle (Some ease_list) (Some ease_number)).
    { exists f_half, f1. split; split; [right|right|left|left]; reflexivity. }
    split; [reflexivity|]. split; [reflexivity|]. split; [exact S|]. split; [exact S|]. split; intros N; discriminate N. }
  apply pair_more; [|apply pair_more; [|exact pair_none]]; (split; [apply M|split; [apply M|]]).
  - exists f0, f1, [], [], []. split; [reflexivity|split; reflexivity].
  - exists f1, f0, [], [], []. split; [reflexivity|split; reflexivity].
Qed.
