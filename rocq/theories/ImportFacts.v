(** Facts about the importer, part 1: values, geometry, transforms, shapes. *)
From Coq Require Import ZArith Reals Bool List Arith String Lia Lra.
From Flocq Require Import Core BinarySingleNaN.
From Verif Require Import F64 F64Facts Kurbo Value Animated Render RenderSpec ValueSpec ValueFacts ValueFacts2 SplineFacts
  Schema Import ImportSpec.
Import ListNotations.
Open Scope list_scope.
Open Scope nat_scope.

(** [spec r S R]: [r] succeeds exactly if [S], then with a result in [R]. *)
Definition spec {A} (r : res A) (S : Prop) (R : A -> Prop) : Prop :=
  match r with Ok x => S /\ R x | Panic => ~ S | Oof => False end.

Lemma spec_ret {A} (x : A) (R : A -> Prop) : R x -> spec (Ok x) True R.
Proof. split; auto. Qed.
Lemma spec_iff {A} (r : res A) (P Q : Prop) R : (P <-> Q) -> spec r P R -> spec r Q R.
Proof. destruct r; cbn; tauto. Qed.
Lemma spec_weaken {A} (r : res A) P (R R' : A -> Prop) : (forall x, R x -> R' x) -> spec r P R -> spec r P R'.
Proof. destruct r; cbn; firstorder. Qed.
Lemma spec_bind {A B} (r : res A) (k : A -> res B) P Q R R' :
  spec r P R -> (forall x, r = Ok x -> R x -> spec (k x) Q R') -> spec (let! x := r in k x) (P /\ Q) R'.
Proof.
  destruct r as [x| |]; cbn; intros H K; [|tauto|tauto].
  destruct H as [HP HR]. specialize (K x eq_refl HR). destruct (k x); cbn in *; tauto.
Qed.
(** the continuation decides only under the hypothesis [P] *)
Lemma spec_bind_ok {A B} (r : res A) (k : A -> res B) P R R' :
  spec r P R -> (forall x, r = Ok x -> R x -> spec (k x) True R') -> spec (let! x := r in k x) P R'.
Proof. intros H K. eapply spec_iff; [|eapply spec_bind; [exact H|exact K]]. tauto. Qed.
Lemma spec_mapM {A B} (f : A -> res B) (S : A -> Prop) (R : A -> B -> Prop) : forall l,
  (forall x, In x l -> spec (f x) (S x) (R x)) ->
  spec (mapM f l) (forall x, In x l -> S x) (fun ys => Forall2 R l ys).
Proof.
  induction l as [|a l IH]; intros H.
  - cbn. split; [intros ? []|constructor].
  - cbn [mapM]. eapply spec_iff; [|eapply spec_bind; [apply (H a); now left|]].
    2:{ intros x _ Hx. eapply spec_bind; [apply IH; intros; apply H; now right|].
        intros ys _ Hys. apply (spec_ret (x :: ys)). now constructor. }
    cbn. firstorder (subst; auto).
Qed.
Lemma spec_ok {A} (r : res A) P R x : spec r P R -> r = Ok x -> P /\ R x.
Proof. intros H ->. exact H. Qed.

(** * Keyframes *)

Lemma hold_of_iff b : hold_of b = true <-> kb_hold b = Some BITrue.
Proof. unfold hold_of. destruct (kb_hold b) as [[]|]; split; congruence. Qed.

Lemma conv_component_spec c : spec (conv_component c) (single c) (component_reads c).
Proof.
  destruct c as [[|x [|y l]]|x]; cbn; try lia; auto.
Qed.
Lemma conv_handle_spec h : spec (conv_keyframe_handle h) (handle_supported h)
  (fun h' => component_reads (kh_x h) (hx h') /\ component_reads (kh_y h) (hy h')).
Proof.
  unfold conv_keyframe_handle. eapply spec_bind; [apply conv_component_spec|]. intros x _ Hx.
  eapply spec_bind_ok; [apply conv_component_spec|]. intros y _ Hy. apply spec_ret. auto.
Qed.
Lemma mapO_spec {A B} (f : A -> res B) (S : A -> Prop) (R : A -> B -> Prop) o :
  (forall x, o = Some x -> spec (f x) (S x) (R x)) ->
  spec (mapO f o) (on_some S o)
    (fun o' => match o, o' with None, None => True | Some x, Some y => R x y | _, _ => False end).
Proof.
  intros H. destruct o as [x|]; cbn [mapO].
  - eapply spec_iff; [|eapply spec_bind_ok; [apply (H x eq_refl)|]].
    + unfold on_some. split; [intros K y Hy; congruence|auto].
    + intros y _ Hy. now apply spec_ret.
  - eapply spec_iff; [|apply spec_ret; exact I]. unfold on_some. split; [discriminate|tauto].
Qed.
Lemma conv_time_spec b : spec (conv_time b) (base_supported b) (time_reads b).
Proof.
  unfold conv_time, base_supported. eapply spec_bind.
  { apply mapO_spec. intros x _. apply conv_handle_spec. }
  intros i _ Hi. eapply spec_bind_ok.
  { apply mapO_spec. intros x _. apply conv_handle_spec. }
  intros o _ Ho. apply spec_ret. unfold time_reads. cbn. repeat split; try apply hold_of_iff.
  - unfold handle_reads. destruct (kb_in b), i; cbn in *; auto.
  - unfold handle_reads. destruct (kb_out b), o; cbn in *; auto.
Qed.

Lemma conv_scalar_kf_spec k : spec (conv_scalar_kf k) (kf_value k <> [] /\ base_supported (kf_b k))
  (fun p => time_reads (kf_b k) (fst p) /\ hd_error (kf_value k) = Some (snd p)).
Proof.
  unfold conv_scalar_kf. eapply spec_bind with (R := fun x => hd_error (kf_value k) = Some x).
  - destruct (kf_value k); cbn; [congruence|split; [discriminate|auto]].
  - intros x _ Hx. eapply spec_bind_ok; [apply conv_time_spec|]. intros t _ Ht. apply spec_ret. auto.
Qed.
Lemma Forall2_map_r {A B C} (R : A -> C -> Prop) (g : B -> C) l l' :
  Forall2 R l (map g l') <-> Forall2 (fun a b => R a (g b)) l l'.
Proof.
  split.
  - revert l. induction l' as [|b l' IH]; intros l H; inversion H; subst; constructor; auto.
  - induction 1; constructor; auto.
Qed.
Lemma Forall2_weaken {A B} (R R' : A -> B -> Prop) l l' :
  (forall a b, R a b -> R' a b) -> Forall2 R l l' -> Forall2 R' l l'.
Proof. intros H. induction 1; constructor; auto. Qed.
Lemma Forall2_len {A B} (R : A -> B -> Prop) l l' : Forall2 R l l' -> List.length l = List.length l'.
Proof. induction 1; cbn; congruence. Qed.
Lemma conv_scalar_spec v : spec (conv_scalar v) (scalar_supported v) (scalar_reads v).
Proof.
  unfold conv_scalar, scalar_supported, scalar_reads. destruct (ap_k v) as [ks|n].
  - eapply spec_bind_ok.
    { apply spec_mapM with (S := fun k => kf_value k <> [] /\ base_supported (kf_b k)).
      intros k _. apply conv_scalar_kf_spec. }
    intros l _ Hl. apply spec_ret. eexists. split; [reflexivity|]. cbn.
    split; apply Forall2_map_r; (eapply Forall2_weaken; [|exact Hl]); intros ? ? []; auto.
  - apply spec_ret. reflexivity.
Qed.
Lemma scalar_reads_wf v w : scalar_reads v w -> value_wf w.
Proof.
  unfold scalar_reads. destruct (ap_k v); [|intros ->; exact I].
  intros (a & -> & H1 & H2). cbn. apply Forall2_len in H1, H2. congruence.
Qed.

Lemma collect_tangents_len h : List.length (collect_tangents h) = handle_width h.
Proof.
  destruct h as [[x y]|]; cbn [collect_tangents handle_width kh_x kh_y]; [|reflexivity].
  destruct x as [xs|x], y as [ys|y]; [| | |reflexivity]; rewrite ?map_length, ?combine_length, ?firstn_length; lia.
Qed.
Lemma nth_error_firstn {A} n (l : list A) : forall j x, nth_error (firstn n l) j = Some x -> nth_error l j = Some x.
Proof.
  revert l. induction n as [|n IH]; intros [|a l] [|j] x; cbn; try discriminate; auto.
Qed.
Lemma nth_error_combine {A B} (l : list A) (l' : list B) : forall j p,
  nth_error (combine l l') j = Some p -> nth_error l j = Some (fst p) /\ nth_error l' j = Some (snd p).
Proof.
  revert l'. induction l as [|a l IH]; intros [|b l'] [|j] p; cbn; try discriminate.
  - intros [= <-]. auto.
  - apply IH.
Qed.
Lemma collect_tangents_at o j h' : nth_error (collect_tangents o) j = Some h' ->
  exists h, o = Some h /\ handle_at h j h'.
Proof.
  destruct o as [[x y]|]; cbn [collect_tangents]; [|destruct j; discriminate].
  intros H. eexists. split; [reflexivity|]. unfold handle_at, component_at. cbn [kh_x kh_y] in *.
  destruct x as [xs|x], y as [ys|y].
  - rewrite nth_error_map in H. destruct (nth_error (combine _ _) j) as [p|] eqn:E; [|discriminate].
    injection H as <-. apply nth_error_combine in E. destruct E as [E1 E2]. cbn.
    split; eapply nth_error_firstn; eauto.
  - rewrite nth_error_map in H. destruct (nth_error _ j) as [p|] eqn:E; [|discriminate].
    injection H as <-. cbn. split; auto. eapply nth_error_firstn; eauto.
  - rewrite nth_error_map in H. destruct (nth_error _ j) as [p|] eqn:E; [|discriminate].
    injection H as <-. cbn. split; auto. eapply nth_error_firstn; eauto.
  - destruct j as [|[|j]]; cbn in H; try discriminate. injection H as <-. auto.
Qed.
Lemma conv_keyframe_reads {T} (f : list f64 -> T) k : group_reads f k (conv_keyframe f k).
Proof.
  unfold group_reads, conv_keyframe.
  set (tg := combine _ _).
  assert (L : List.length tg = easings k) by (unfold tg, easings; rewrite combine_length, !collect_tangents_len; reflexivity).
  assert (At : forall j p, nth_error tg j = Some p ->
     nth_error (collect_tangents (kb_in (kf_b k))) j = Some (fst p) /\
     nth_error (collect_tangents (kb_out (kf_b k))) j = Some (snd p)) by (intros; now apply nth_error_combine).
  clearbody tg. destruct tg as [|p tg].
  - split; [rewrite <- L; reflexivity|]. intros [|[|j]] e; cbn; try discriminate. intros [= <-].
    unfold entry_reads. cbn [fst snd t_frame t_hold t_in t_out]. repeat split; auto; apply hold_of_iff.
  - split; [rewrite map_length, <- L; reflexivity|]. intros j e H. rewrite nth_error_map in H.
    destruct (nth_error (p :: tg) j) as [q|] eqn:Eq; [|discriminate]. injection H as <-.
    destruct (At j q Eq) as [A1 A2]. apply collect_tangents_at in A1, A2.
    destruct A1 as (hi & Hi & A1), A2 as (ho & Ho & A2).
    unfold entry_reads. cbn. split; [reflexivity|]. split; [apply hold_of_iff|].
    split; [reflexivity|]. exists hi, ho. auto.
Qed.
Lemma conv_keyframes_reads {T} (f : list f64 -> T) ks : keyframes_read f ks (conv_keyframes f ks).
Proof.
  exists (map (conv_keyframe f) ks). split.
  - induction ks; cbn; constructor; auto using conv_keyframe_reads.
  - unfold conv_keyframes. rewrite flat_map_concat_map. reflexivity.
Qed.
Lemma keyframes_read_wf {T} (f : list f64 -> T) ks w : keyframes_read f ks w -> value_wf w.
Proof. intros (g & _ & ->). cbn. rewrite !map_length. reflexivity. Qed.
Lemma keyframes_read_ext {T} (f g : list f64 -> T) ks w : (forall l, f l = g l) ->
  keyframes_read f ks w -> keyframes_read g ks w.
Proof.
  intros H (gs & F & ->). exists gs. split; [|reflexivity].
  eapply Forall2_weaken; [|exact F]. unfold group_reads, entry_reads.
  intros k gr [L A]. split; auto. intros j e He. specialize (A j e He). rewrite <- H. exact A.
Qed.
Lemma to_point_of l : to_point l = point_of l. Proof. destruct l as [|? [|]]; reflexivity. Qed.
Lemma to_vec2_of l : to_vec2 l = vec2_of l. Proof. destruct l as [|? [|]]; reflexivity. Qed.
Lemma to_size_of l : to_size l = size_of l. Proof. destruct l as [|? [|]]; reflexivity. Qed.
Lemma to_color_of l : to_color l = color_of l. Proof. destruct l as [|? [|? [|]]]; reflexivity. Qed.
Lemma conv_pos_reads p : pos_reads point_of p (conv_pos_point p).
Proof.
  unfold pos_reads, conv_pos_point, conv_pos. destruct (po_k p).
  - eapply keyframes_read_ext; [apply to_point_of|apply conv_keyframes_reads].
  - now rewrite to_point_of.
Qed.
Lemma conv_multi_reads {T} (f g : list f64 -> T) v : (forall l, f l = g l) -> vector_reads g (md_p v) (conv_multi v f).
Proof.
  intros H. unfold vector_reads, conv_multi. destruct (ap_k (md_p v)).
  - eapply keyframes_read_ext; [exact H|apply conv_keyframes_reads].
  - now rewrite H.
Qed.
Lemma conv_color_reads c : vector_reads color_of c (conv_color c).
Proof.
  unfold vector_reads, conv_color, conv_multi_color. destruct (ap_k c).
  - eapply keyframes_read_ext; [apply to_color_of|apply conv_keyframes_reads].
  - now rewrite to_color_of.
Qed.
Lemma pos_reads_wf {T} (f : list f64 -> T) p w : pos_reads f p w -> value_wf w.
Proof. unfold pos_reads. destruct (po_k p); [apply keyframes_read_wf|intros ->; exact I]. Qed.
Lemma vector_reads_wf {T} (f : list f64 -> T) p w : vector_reads f p w -> value_wf w.
Proof. unfold vector_reads. destruct (ap_k p); [apply keyframes_read_wf|intros ->; exact I]. Qed.

(** * Gradients *)

Lemma chunks4_length : forall l, List.length (chunks4 l) = List.length l / 4.
Proof.
  fix IH 1. intros [|a [|b [|c [|d l]]]]; try reflexivity.
  cbn [chunks4 List.length]. rewrite IH.
  replace (S (S (S (S (List.length l))))) with (1 * 4 + List.length l) by lia.
  rewrite Nat.div_add_l by lia. reflexivity.
Qed.
Lemma chunks4_at : forall l i o r g b, nth_error (chunks4 l) i = Some (o, r, g, b) ->
  nums l (4 * i) [o; r; g; b].
Proof.
  fix IH 1. intros l i o r g b. destruct l as [|a1 [|a2 [|a3 [|a4 l]]]]; try (destruct i; discriminate).
  destruct i as [|i]; cbn [chunks4 nth_error].
  - intros [= -> -> -> ->]. reflexivity.
  - intros H. apply IH in H. unfold nums in *.
    replace (4 * S i) with (S (S (S (S (4 * i))))) by lia. exact H.
Qed.
Definition raw_stop (q : f64 * f64 * f64 * f64) : stop5 :=
  let '(o, r, g, b) := q in mkStop5 o r g b f1.
(** the colour part of the result *)
Definition colour_part (s : stop5) := (s5_offset s, s5_r s, s5_g s, s5_b s).
(** [conv_stops] in closed form *)
Lemma stops_loop_eq E value count : forall chunks stops, List.length stops < Nat.max 1 count ->
  stops_loop E value count chunks stops =
  if Nat.max 1 count <=? List.length stops + List.length chunks
  then map (apply_alpha E (skipn (count * 2) (chunks2 value)))
           (stops ++ firstn (Nat.max 1 count - List.length stops) (map raw_stop chunks))
  else stops ++ map raw_stop chunks.
Proof.
  induction chunks as [|[[[o r] g] b] chunks IH]; intros stops L.
  - cbn [stops_loop map List.length]. destruct (Nat.leb_spec (Nat.max 1 count) (List.length stops + 0)); [lia|].
    now rewrite app_nil_r.
  - cbn [stops_loop]. rewrite app_length. cbn [List.length].
    destruct (Nat.leb_spec count (List.length stops + 1)) as [C|C].
    + destruct (Nat.leb_spec (Nat.max 1 count) (List.length stops + S (List.length chunks))); [|lia].
      replace (Nat.max 1 count - List.length stops) with 1 by lia. reflexivity.
    + rewrite IH by (rewrite app_length; cbn [List.length]; lia). rewrite app_length. cbn [List.length].
      replace (List.length stops + 1 + List.length chunks) with (List.length stops + S (List.length chunks)) by lia.
      destruct (Nat.leb_spec (Nat.max 1 count) (List.length stops + S (List.length chunks))).
      * f_equal. rewrite <- app_assoc. f_equal.
        replace (Nat.max 1 count - List.length stops) with (S (Nat.max 1 count - (List.length stops + 1))) by lia.
        reflexivity.
      * rewrite <- app_assoc. reflexivity.
Qed.
Lemma conv_stops_eq E value count : conv_stops E value count =
  if Nat.max 1 count <=? List.length value / 4
  then map (apply_alpha E (skipn (count * 2) (chunks2 value)))
           (firstn (Nat.max 1 count) (map raw_stop (chunks4 value)))
  else map raw_stop (chunks4 value).
Proof.
  unfold conv_stops. rewrite stops_loop_eq by (cbn [List.length]; lia). cbn [List.length app Nat.add].
  rewrite chunks4_length, Nat.sub_0_r. reflexivity.
Qed.
Lemma conv_stops_colours E value count :
  map colour_part (conv_stops E value count) = firstn (stop_total value count) (chunks4 value).
Proof.
  rewrite conv_stops_eq. unfold stop_total.
  assert (R : forall l, map colour_part (map raw_stop l) = l)
    by (induction l as [|[[[? ?] ?] ?] l IH]; [reflexivity|cbn [map]; rewrite IH; reflexivity]).
  destruct (Nat.leb_spec (Nat.max 1 count) (List.length value / 4)).
  - rewrite map_map. rewrite (map_ext _ colour_part) by reflexivity.
    rewrite <- firstn_map, R. f_equal. lia.
  - rewrite R. rewrite firstn_all2; [reflexivity|]. rewrite chunks4_length. lia.
Qed.
Lemma conv_stops_length E value count : List.length (conv_stops E value count) = stop_total value count.
Proof.
  rewrite <- (map_length colour_part), conv_stops_colours, firstn_length, chunks4_length. unfold stop_total. lia.
Qed.
Lemma conv_stops_at E value count i s : nth_error (conv_stops E value count) i = Some s ->
  nums value (4 * i) [s5_offset s; s5_r s; s5_g s; s5_b s].
Proof.
  intros H. apply (map_nth_error colour_part) in H. rewrite conv_stops_colours in H.
  apply nth_error_firstn in H. now apply chunks4_at in H.
Qed.
(** ** Opacities *)
Lemma fmin_cases x y : fmin x y = x \/ fmin x y = y.
Proof. unfold fmin. destruct (is_nan x), (is_nan y), (fltb y x); auto. Qed.
Lemma fleb_refl_nn (x : f64) : is_nan x = false -> fleb x x = true.
Proof. destruct x as [[]|[]| |[] m e B]; try discriminate; intros _; try reflexivity; unfold fleb, Bleb, SpecFloat.SFleb, SpecFloat.SFcompare; cbn [B2SF]; rewrite Z.compare_refl, ?Pos.compare_cont_refl; reflexivity. Qed.
Lemma fcmp_antisym (x y : f64) : SpecFloat.SFcompare (B2SF x) (B2SF y) = match SpecFloat.SFcompare (B2SF y) (B2SF x) with
  | Some c => Some (CompOpp c) | None => None end.
Proof. apply (Bcompare_swap 53 1024 y x). Qed.
Lemma fmin_le_l x y : is_nan x = false -> fleb (fmin x y) x = true.
Proof.
  intros N. unfold fmin. rewrite N. destruct (is_nan y); [now apply fleb_refl_nn|].
  destruct (fltb y x) eqn:L; [|now apply fleb_refl_nn].
  unfold fltb, fleb, Bltb, Bleb, SpecFloat.SFltb, SpecFloat.SFleb in *. destruct (SpecFloat.SFcompare _ _) as [[]|]; congruence.
Qed.
Lemma fmin_le_r x y : is_nan x = false -> is_nan y = false -> fleb (fmin x y) y = true.
Proof.
  intros N N'. unfold fmin. rewrite N, N'. destruct (fltb y x) eqn:L; [now apply fleb_refl_nn|].
  assert (C : exists c, SpecFloat.SFcompare (B2SF y) (B2SF x) = Some c).
  { destruct x as [[]|[]| |[] ? ? ?], y as [[]|[]| |[] ? ? ?]; try discriminate; cbn; eauto. }
  destruct C as [c C].
  unfold fltb, fleb, Bltb, Bleb, SpecFloat.SFltb, SpecFloat.SFleb in *. rewrite fcmp_antisym.
  rewrite C in *. destruct c; cbn; congruence.
Qed.
Lemma fmin_nn x y : is_nan x = false -> is_nan (fmin x y) = false.
Proof. intros N. unfold fmin. rewrite N. destruct (is_nan y) eqn:N'; [exact N|]. now destruct (fltb y x). Qed.
Lemma fleb_trans_nn x y z : fleb x y = true -> fleb y z = true -> fleb x z = true.
Proof.
  destruct x as [sx|sx| |sx mx ex Bx], y as [sy|sy| |sy my ey By], z as [sz|sz| |sz mz ez Bz]; try discriminate;
    try (destruct sx; try discriminate; reflexivity);
    try (destruct sx, sy; try discriminate; reflexivity);
    try (destruct sx, sz; try discriminate; reflexivity);
    try (destruct sx, sy, sz; try discriminate; reflexivity);
    intros H1 H2; apply fleb_le in H1; try reflexivity; apply fleb_le in H2; try reflexivity;
    apply fleb_le; try reflexivity; eapply Rle_trans; eauto.
Qed.

(** The segments of a list of opacity stops. *)
Fixpoint segments (last : option (f64 * f64)) (l : list (f64 * f64)) : list ((f64 * f64) * (f64 * f64)) :=
  match l with
  | [] => []
  | p :: l => match last with Some q => (q, p) :: segments (Some p) l | None => segments (Some p) l end
  end.
Definition seg_alpha (E : Ext) (x : f64) (s : (f64 * f64) * (f64 * f64)) : f64 :=
  segment_alpha E (fst (fst s)) (snd (fst s)) (fst (snd s)) (snd (snd s)) x.
Lemma alpha_scan_eq E x : forall l last acc,
  alpha_scan E x last l acc = fold_left fmin (map (seg_alpha E x) (segments last l)) acc.
Proof.
  induction l as [|[b ab] l IH]; intros last acc; [reflexivity|]. cbn [alpha_scan segments].
  destruct last as [[a aa]|]; cbn [map fold_left]; rewrite IH; reflexivity.
Qed.
Lemma segments_some p l : segments None (p :: l) = segments (Some p) l.
Proof. reflexivity. Qed.
Lemma segments_nth : forall l p j, nth_error (segments (Some p) l) j =
  match nth_error (p :: l) j, nth_error l j with Some a, Some b => Some (a, b) | _, _ => None end.
Proof.
  induction l as [|q l IH]; intros p [|j]; cbn [segments nth_error].
  - reflexivity.
  - destruct (nth_error [] j); [|reflexivity]. destruct j; reflexivity.
  - reflexivity.
  - rewrite IH. reflexivity.
Qed.
Lemma segments_at l j s : nth_error (segments None l) j = Some s <->
  nth_error l j = Some (fst s) /\ nth_error l (S j) = Some (snd s).
Proof.
  destruct l as [|p l].
  - destruct j; split; try discriminate; intros [H _]; discriminate.
  - rewrite segments_some, segments_nth. cbn [nth_error].
    destruct (nth_error (p :: l) j) as [a|], (nth_error l j) as [b|]; split; try discriminate; try (intros [? ?]; discriminate).
    + intros [= <-]. auto.
    + intros [[= ->] [= ->]]. now destruct s.
Qed.
Lemma fold_fmin_le1 l : forall acc, is_nan acc = false ->
  fleb (fold_left fmin l acc) acc = true /\ is_nan (fold_left fmin l acc) = false.
Proof.
  induction l as [|y l IH]; intros acc N; cbn [fold_left].
  - split; [now apply fleb_refl_nn|exact N].
  - destruct (IH (fmin acc y) (fmin_nn _ _ N)) as [A B]. split; [|exact B].
    eapply fleb_trans_nn; [exact A|]. now apply fmin_le_l.
Qed.
Lemma fold_fmin_in l : forall acc, fold_left fmin l acc = acc \/ In (fold_left fmin l acc) l.
Proof.
  induction l as [|y l IH]; intros acc; cbn [fold_left]; [now left|].
  destruct (IH (fmin acc y)) as [->|H]; [|right; now right].
  destruct (fmin_cases acc y) as [->| ->]; [now left|right; now left].
Qed.
Lemma fold_fmin_le l : forall acc y, is_nan acc = false -> In y l -> is_nan y = false ->
  fleb (fold_left fmin l acc) y = true.
Proof.
  induction l as [|z l IH]; intros acc y N Hin Ny; [destruct Hin|]. cbn [fold_left].
  destruct Hin as [->|Hin].
  - destruct (fold_fmin_le1 l (fmin acc y) (fmin_nn _ _ N)) as [A _]. eapply fleb_trans_nn; [exact A|].
    now apply fmin_le_r.
  - apply IH; auto using fmin_nn.
Qed.

Lemma fdiv_ge_1 n d : is_finite n = true -> is_finite d = true -> (0 < B2R d)%R -> (B2R d <= B2R n)%R ->
  fleb f1 (fdiv n d) = true.
Proof.
  intros Fn Fd Hd Hn. unfold fdiv.
  pose proof (Bdiv_correct 53 1024 _ _ mode_NE n d ltac:(lra)) as P.
  assert (Q : (1 <= B2R n / B2R d)%R) by (apply Rmult_le_reg_r with (B2R d); [lra|]; field_simplify; lra).
  assert (Qr : (1 <= rnd (B2R n / B2R d))%R).
  { rewrite <- f1_R. apply rnd_ge_f. now rewrite f1_R. }
  destruct (Rlt_bool_spec (Rabs (rnd (B2R n / B2R d))) (bpow radix2 1024)) as [L|L].
  - destruct P as (R1 & F & _).
    apply fleb_le; [exact f1_fin|congruence|]. rewrite f1_R, R1. exact Qr.
  -
    assert (Sn : Bsign n = false).
    { destruct n as [[]|[]| |[]]; cbn in *; try discriminate; try reflexivity; try lra.
      exfalso. pose proof (F2R_lt_0 radix2 (Float radix2 (Zneg m) e) ltac:(reflexivity)). lra. }
    assert (Sd : Bsign d = false).
    { destruct d as [[]|[]| |[]]; cbn in *; try discriminate; try reflexivity; try lra.
      exfalso. pose proof (F2R_lt_0 radix2 (Float radix2 (Zneg m) e) ltac:(reflexivity)). lra. }
    rewrite Sn, Sd in P. cbn in P. destruct (Bdiv mode_NE n d) as [[]|[]| |[]]; cbn in P; try discriminate; reflexivity.
Qed.
Section Segment.
  Variable E : Ext.
  Variables a aa b ab x : f64.
  Hypothesis Ma : moderate a.
  Hypothesis Mb : moderate b.
  Hypothesis Mx : moderate x.
  Hypothesis Lt : fltb a b = true.
  Lemma seg_lt : (B2R a < B2R b)%R. Proof. apply fltb_lt; auto; [apply Ma|apply Mb]. Qed.
  Lemma seg_norm : normalize_to_range a b x = fdiv (fsub x a) (fsub b a).
  Proof.
    unfold normalize_to_range. destruct (feqb a b) eqn:Q; [|reflexivity].
    apply feqb_eq in Q; [|apply Ma|apply Mb]. pose proof seg_lt. lra.
  Qed.
  Lemma seg_sub_R u v : moderate u -> moderate v ->
    B2R (fsub u v) = rnd (B2R u - B2R v) /\ is_finite (fsub u v) = true.
  Proof.
    intros Mu Mv. pose proof (mag_le_sub u v 1000 ltac:(lia) Mu Mv) as [F _].
    split; [|exact F]. destruct Mu as [Fu Bu], Mv as [Fv Bv]. apply fsub_R; auto.
    apply Rle_trans with (bpow radix2 1001); [|apply bpow_le; lia].
    change 1001%Z with (1000 + 1)%Z. rewrite bpow_S.
    eapply Rle_trans; [apply Rabs_triang|]. rewrite Rabs_Ropp. lra.
  Qed.
  (** at or before the start of the segment *)
  Lemma seg_before : (B2R x <= B2R a)%R -> segment_alpha E a aa b ab x = aa.
  Proof.
    intros H. pose proof seg_lt as L.
    assert (T : fleb (normalize_to_range a b x) f0 = true).
    { rewrite seg_norm. destruct (Rle_lt_or_eq_dec _ _ H) as [H'|H'].
      - apply weight_before; auto. apply Mx.
      - assert (Z : exists s, fsub x a = B754_zero s).
        { destruct (seg_sub_R x a Mx Ma) as [R F]. rewrite H', Rminus_diag_eq, rnd_0 in R by reflexivity.
          now apply zero_of_R. }
        destruct Z as [s ->]. pose proof (fsub_sign_pos b a ltac:(apply Mb) ltac:(apply Ma) L) as S.
        destruct (fsub b a) as [[]|[]| |[]]; try discriminate; destruct s; reflexivity. }
    unfold segment_alpha. set (t := normalize_to_range a b x) in *.
    assert (tween_f64 E aa ab t easing_lerp = aa) as -> by (unfold tween_f64; now rewrite T).
    assert (N : fleb (flit 3 4) t = false).
    { destruct (fleb (flit 3 4) t) eqn:Q; [|reflexivity]. pose proof (fleb_trans_nn _ _ _ Q T). discriminate. }
    rewrite N, andb_false_r. cbn [andb].
    destruct (fleb a x && fleb x b && fleb t (flit 1 4) && fleb x (flit 1 10)); reflexivity.
  Qed.
  (** at or after its end *)
  Lemma seg_after : (B2R b <= B2R x)%R -> segment_alpha E a aa b ab x = ab.
  Proof.
    intros H. pose proof seg_lt as L.
    assert (T : fleb f1 (normalize_to_range a b x) = true).
    { rewrite seg_norm. destruct (seg_sub_R x a Mx Ma) as [R1 F1]. destruct (seg_sub_R b a Mb Ma) as [R2 F2].
      apply fdiv_ge_1; auto.
      - rewrite R2. now apply rnd_sub_pos.
      - rewrite R1, R2. apply rnd_le. lra. }
    unfold segment_alpha. set (t := normalize_to_range a b x) in *.
    assert (tween_f64 E aa ab t easing_lerp = ab) as ->.
    { unfold tween_f64. destruct (fleb t f0) eqn:Q; [pose proof (fleb_trans_nn _ _ _ T Q); discriminate|]. now rewrite T. }
    assert (N : fleb t (flit 1 4) = false).
    { destruct (fleb t (flit 1 4)) eqn:Q; [|reflexivity]. pose proof (fleb_trans_nn _ _ _ T Q). discriminate. }
    rewrite N, andb_false_r. cbn [andb].
    destruct (fleb a x && fleb x b && fleb (flit 3 4) t && fleb (flit 9 10) x); reflexivity.
  Qed.
End Segment.
Lemma scan_at_stop E ops k p x : sane_opacities ops -> 2 <= List.length ops ->
  nth_error ops k = Some p -> is_finite x = true -> feqb x (fst p) = true ->
  least_opacity ops k (alpha_scan E x None ops f1).
Proof.
  intros [Fo Inc] Len Hk Fx Ex. rewrite alpha_scan_eq.
  rewrite Forall_forall in Fo.
  assert (Fp : moderate (fst p)) by (apply Fo; eapply nth_error_In; eauto).
  assert (Rx : B2R x = B2R (fst p)) by (apply feqb_eq; auto; apply Fp).
  assert (Mx : moderate x) by (split; [exact Fx|rewrite Rx; apply Fp]).
  assert (Lk0 : k < List.length ops) by (apply nth_error_Some; congruence).
  (* the opacity of segment j at x *)
  assert (SegV : forall j s, nth_error (segments None ops) j = Some s ->
            seg_alpha E x s = if j <? k then snd (snd s) else snd (fst s)).
  { intros j [s1 s2] Hj. apply segments_at in Hj. cbn [fst snd] in *. destruct Hj as [H1 H2].
    assert (M1 : moderate (fst s1)) by (apply Fo; eapply nth_error_In; eauto).
    assert (M2 : moderate (fst s2)) by (apply Fo; eapply nth_error_In; eauto).
    assert (L12 : fltb (fst s1) (fst s2) = true) by (eapply (Inc j (S j)); eauto).
    unfold seg_alpha. cbn [fst snd]. destruct (Nat.ltb_spec j k) as [Lk|Lk].
    - apply seg_after; auto. rewrite Rx. destruct (Nat.eq_dec (S j) k) as [Eq|Ne].
      + assert (s2 = p) by congruence. subst. lra.
      + apply Rlt_le. apply fltb_lt; [apply M2|apply Fp|]. eapply (Inc (S j) k); eauto. lia.
    - apply seg_before; auto. rewrite Rx. destruct (Nat.eq_dec j k) as [Eq|Ne].
      + assert (s1 = p) by congruence. subst. lra.
      + apply Rlt_le. apply fltb_lt; [apply Fp|apply M1|]. eapply (Inc k j); eauto. lia. }
  split.
  - intros j q Cj Hj.
    assert (Fq : is_nan (snd q) = false).
    { assert (is_finite (snd q) = true) by (apply Fo; eapply nth_error_In; eauto). now destruct (snd q). }
    apply fold_fmin_le; [reflexivity| |exact Fq].
    (* stop j is the end of segment j - 1 if j <= k, else the start of segment j *)
    assert (Lj : j < List.length ops) by (apply nth_error_Some; congruence).
    assert (W : (0 < j <= k) \/ (k <= j /\ S j < List.length ops)) by lia.
    destruct W as [W|W].
    + destruct j as [|j']; [lia|].
      destruct (nth_error ops j') as [q0|] eqn:Q0; [|apply nth_error_None in Q0; lia].
      assert (Sg : nth_error (segments None ops) j' = Some (q0, q)) by (apply segments_at; auto).
      apply in_map_iff. exists (q0, q). split; [|eapply nth_error_In; eauto].
      rewrite (SegV j' _ Sg). destruct (Nat.ltb_spec j' k); [reflexivity|lia].
    + destruct (nth_error ops (S j)) as [q0|] eqn:Q0; [|apply nth_error_None in Q0; lia].
      assert (Sg : nth_error (segments None ops) j = Some (q, q0)) by (apply segments_at; auto).
      apply in_map_iff. exists (q, q0). split; [|eapply nth_error_In; eauto].
      rewrite (SegV j _ Sg). destruct (Nat.ltb_spec j k); [lia|reflexivity].
  - destruct (fold_fmin_in (map (seg_alpha E x) (segments None ops)) f1) as [->|H]; [now left|]. right.
    apply in_map_iff in H. destruct H as (s & Hs & Hin). apply In_nth_error in Hin. destruct Hin as [j Hj].
    rewrite (SegV j s Hj) in Hs. apply segments_at in Hj. destruct Hj as [H1 H2].
    assert (S j < List.length ops) by (apply nth_error_Some; congruence).
    destruct (Nat.ltb_spec j k) as [L|L].
    + exists (S j), (snd s). split; [lia|]. auto.
    + exists j, (fst s). split; [lia|]. auto.
Qed.
Lemma chunks2_skip : forall n l, skipn n (chunks2 l) = pairs_of (skipn (2 * n) l).
Proof.
  induction n as [|n IH]; intros l.
  - cbn [skipn Nat.mul]. revert l. fix F 1. intros [|a [|b l]]; [reflexivity|reflexivity|]. cbn. now rewrite F.
  - replace (2 * S n) with (S (S (2 * n))) by lia. destruct l as [|a [|b l]]; cbn [chunks2 skipn].
    + reflexivity.
    + destruct (2 * n); reflexivity.
    + apply IH.
Qed.
Lemma conv_stops_opacity E value count i s : nth_error (conv_stops E value count) i = Some s ->
  stop_opacity value count (s5_offset s) (s5_a s).
Proof.
  rewrite conv_stops_eq. replace (count * 2) with (2 * count) by lia.
  rewrite chunks2_skip. replace (2 * (2 * count)) with (4 * count) by lia. fold (opacity_stops value count).
  set (ops := opacity_stops value count).
  assert (Raw : forall l, nth_error (map raw_stop l) i = Some s -> s5_a s = f1).
  { intros l H. rewrite nth_error_map in H. destruct (nth_error l i) as [[[[? ?] ?] ?]|]; [|discriminate].
    now injection H as <-. }
  destruct (Nat.leb_spec (Nat.max 1 count) (List.length value / 4)) as [L|L].
  - intros H. rewrite nth_error_map in H. destruct (nth_error (firstn _ _) i) as [q|] eqn:Q; [|discriminate].
    injection H as <-. cbn [apply_alpha s5_offset s5_a].
    apply nth_error_firstn in Q. rewrite nth_error_map in Q.
    destruct (nth_error (chunks4 value) i) as [[[[o r] g] b]|]; [|discriminate].
    injection Q as <-. cbn [raw_stop s5_offset s5_a].
    split; [rewrite alpha_scan_eq; now apply fold_fmin_le1|]. split.
    + fold ops. destruct ops as [|p [|p' ops']]; cbn; try lia; try reflexivity. now destruct p.
    + fold ops. intros _ _ Lo Sane k p Hk Fx Ex. eapply scan_at_stop; eauto.
  - intros H. apply Raw in H. rewrite H. split; [reflexivity|]. split; [reflexivity|].
    intros C1 C2. exfalso. assert (count <= List.length value / 4) by (apply Nat.div_le_lower_bound; lia). lia.
Qed.

Lemma conv_stops_read E value count : stops_read value count (map stop5_to_stop (conv_stops E value count)).
Proof.
  split; [rewrite map_length; apply conv_stops_length|]. intros i s H. rewrite nth_error_map in H.
  destruct (nth_error (conv_stops E value count) i) as [q|] eqn:Q; [|discriminate].
  injection H as <-. exists (s5_offset q), (s5_r q), (s5_g q), (s5_b q), (s5_a q).
  split; [eapply conv_stops_at; eauto|]. cbn. pose proof (conv_stops_opacity _ _ _ _ _ Q). auto 10.
Qed.
Lemma flat_stops_length l : List.length (flat_map stop5_list l) = 5 * List.length l.
Proof. induction l; cbn [flat_map List.length]; rewrite ?app_length; cbn in *; lia. Qed.
Lemma flat_stops_at : forall l i s, nth_error l i = Some s ->
  nums (flat_map stop5_list l) (5 * i) (stop5_list s).
Proof.
  induction l as [|a l IH]; intros [|i] s H; try discriminate.
  - injection H as ->. reflexivity.
  - cbn in H. apply IH in H. unfold nums in *.
    replace (5 * S i) with (S (S (S (S (S (5 * i)))))) by lia. exact H.
Qed.
Lemma conv_stops_read_flat E value count :
  stops_read_flat value count (flat_map stop5_list (conv_stops E value count)).
Proof.
  split; [rewrite flat_stops_length, conv_stops_length; lia|]. intros i L.
  destruct (nth_error (conv_stops E value count) i) as [q|] eqn:Q.
  2:{ apply nth_error_None in Q. rewrite conv_stops_length in Q. lia. }
  exists (s5_offset q), (s5_r q), (s5_g q), (s5_b q), (s5_a q). split; [eapply conv_stops_at; eauto|].
  split; [|eapply conv_stops_opacity; eauto]. apply flat_stops_at in Q. exact Q.
Qed.
Lemma conv_gradient_colors_spec E g :
  spec (conv_gradient_colors E g)
    (match ap_k (md_p (gc_k g)) with AkStatic _ => True
     | AkAnimated ks => forall k, In k ks -> base_supported (kf_b k) end)
    (gradient_stops_read g).
Proof.
  unfold conv_gradient_colors, gradient_stops_read. destruct (ap_k (md_p (gc_k g))) as [ks|l].
  - eapply spec_bind_ok.
    { apply spec_mapM with (S := fun k => base_supported (kf_b k)). intros k _. apply conv_time_spec. }
    intros frames _ H. apply spec_ret. eexists. split; [reflexivity|]. cbn.
    split; [reflexivity|]. split; [exact H|]. apply Forall2_map_r.
    clear. induction ks; constructor; auto using conv_stops_read_flat.
  - apply spec_ret. eexists. split; [reflexivity|]. apply conv_stops_read.
Qed.

(** * Evaluation of fixed forms (C28, restated to avoid importing Prop files) *)
Lemma fixed_any {T} `{Tween T} `{Dflt T} E (v : value T) f g : is_fixed v = true -> eval E v f = eval E v g.
Proof. destruct v; [reflexivity|discriminate]. Qed.
Lemma stroke_model E s frame : stroke_eval E (a_stroke_into_model E s) frame = a_stroke_eval E s frame.
Proof.
  unfold a_stroke_into_model. destruct (a_stroke_is_fixed s) eqn:F; [|reflexivity].
  cbn. unfold a_stroke_eval. now rewrite (fixed_any E (as_width s) f0 frame F).
Qed.
Lemma trim_model E t frame : trim_eval E (a_trim_into_model E t) frame = a_trim_eval E t frame.
Proof.
  unfold a_trim_into_model. destruct (a_trim_is_fixed t) eqn:F; [|reflexivity].
  unfold a_trim_is_fixed in F. rewrite !andb_true_iff in F. destruct F as [[F1 F2] F3]. cbn. unfold a_trim_eval.
  rewrite (fixed_any E _ f0 frame F1), (fixed_any E _ f0 frame F2), (fixed_any E _ f0 frame F3). reflexivity.
Qed.
Lemma brush_model E b frame : brush_eval E (a_brush_into_model E b) f1 frame = a_brush_eval E b f1 frame.
Proof.
  unfold a_brush_into_model. destruct (a_brush_is_fixed b) eqn:F; [|reflexivity].
  cbn [brush_eval]. replace (feqb f1 f1) with true by reflexivity.
  destruct b as [c|g]; cbn in *.
  - destruct c; [reflexivity|discriminate].
  - unfold a_gradient_is_fixed in F. rewrite !andb_true_iff in F. destruct F as [[F1 F2] F3].
    unfold a_gradient_eval. rewrite (fixed_any E _ f0 frame F1), (fixed_any E _ f0 frame F2).
    destruct (ag_stops g); [reflexivity|discriminate].
Qed.
Lemma transform_model E t frame : transform_eval E (a_transform_into_model E t) frame = a_transform_eval E t frame.
Proof.
  unfold a_transform_into_model. destruct (a_transform_is_fixed t) eqn:F; [|reflexivity].
  unfold a_transform_is_fixed in F. rewrite !andb_true_iff in F. cbn [transform_eval].
  unfold a_transform_eval, position_eval.
  repeat match goal with H : _ /\ _ |- _ => destruct H end.
  repeat match goal with H : is_fixed _ = true |- _ => rewrite (fixed_any E _ f0 frame H); clear H end.
  match goal with H : position_is_fixed _ = true |- _ => unfold position_is_fixed in H end.
  destruct (at_position t) as [v|x y].
  - now rewrite (fixed_any E v f0 frame) by assumption.
  - match goal with H : _ && _ = true |- _ => apply andb_true_iff in H; destruct H end.
    now rewrite (fixed_any E x f0 frame), (fixed_any E y f0 frame) by assumption.
Qed.
