(** C82: what is painted is where the document puts it. *)
From Coq Require Import ZArith Reals Bool List Arith String Lia Lra.
From Flocq Require Import Core BinarySingleNaN.
From Verif Require Import F64 F64Facts Kurbo Value Animated Batch Render RenderSpec RenderFacts RenderFacts3 BatchSpec FrameSpec
  GeometrySpec PropGeometry Schema Import TimelineSpec ImportSpec ImportFacts3 ImportFacts4 PropRender PropFrame PropImport PropImport2
  PropDocument FamilySpec DocExamples PropFamily NestSpec NestFacts PropStar.
Import ListNotations.
Open Scope list_scope.
Open Scope R_scope.

(** * Products along the levels *)
Definition total (xs : list posture) : R := INR (List.length xs).
(** [m] is the product for [levels] under the view. *)
Definition stands (E : Ext) (view : affine) (levels : list level) (m : affine) : Prop :=
  exists xs, Forall2 (level_posture E) levels xs /\
    (Forall plain_posture xs -> manageable xs -> viewed (total xs) (total_zoom xs) m (rmul (view_matrix view) (rmats xs))).
Lemma stands_view E view : plain_view view -> stands E view [] view.
Proof.
  intros V. exists []. split; [constructor|]. intros _ _. cbn [total_zoom rmats]. rewrite rmul_id_r. now apply viewed_view.
Qed.
Lemma manageable_size xs : manageable xs -> total xs * total xs * total_zoom xs <= 2000. Proof. exact (fun H => H). Qed.
Lemma total_1 (x : posture) xs : 1 <= total (x :: xs).
Proof. unfold total. cbn [List.length]. rewrite S_INR. pose proof (pos_INR (List.length xs)). lra. Qed.
Lemma stands_deep E view levels outer new xs k : stands E view levels outer -> Forall2 (level_posture E) new xs -> xs <> [] ->
  (Forall plain_posture xs -> manageable xs -> deep (total xs) (total_zoom xs) k (rmats xs)) ->
  stands E view (new ++ levels) (affine_mul outer k).
Proof.
  intros (ys & F & V) F' N D. exists (xs ++ ys). split; [now apply Forall2_app|]. intros P M.
  apply Forall_app in P as [P1 P2]. pose proof (manageable_app _ _ M) as [M1 M2].
  rewrite rmats_app, <- rmul_assoc. unfold total. rewrite app_length, plus_INR, total_zoom_app.
  rewrite Rplus_comm, (Rmult_comm (total_zoom xs)).
  destruct xs as [|x xs]; [contradiction|].
  apply viewed_mul; [apply V; assumption|apply D; assumption|apply pos_INR|..].
  - apply (total_1 x xs).
  - apply total_zoom_1.
  - apply total_zoom_1.
  - unfold manageable in M. rewrite app_length, plus_INR, total_zoom_app in M.
    rewrite (Rplus_comm (INR (List.length ys))), (Rmult_comm (total_zoom ys)). exact M.
Qed.
(** A layer with its parents. *)
Lemma deep_chain E : accurate E -> forall xs ms, Forall2 (fun m x => m = map_of E x) ms xs ->
  forall x0 ys acc, Forall plain_posture xs -> manageable ((x0 :: ys) ++ xs) ->
  deep (total (x0 :: ys)) (total_zoom (x0 :: ys)) acc (rmats (x0 :: ys)) ->
  deep (total ((x0 :: ys) ++ xs)) (total_zoom ((x0 :: ys) ++ xs)) (fold_left (fun acc m => affine_mul m acc) ms acc) (rmats ((x0 :: ys) ++ xs)).
Proof.
  intros A xs ms F. induction F as [|m x ms xs -> _ IH]; intros x0 ys acc P M D.
  - rewrite app_nil_r. exact D.
  - inversion P as [|? ? P1 P2]; subst. cbn [fold_left].
    replace ((x0 :: ys) ++ x :: xs) with ((x0 :: (ys ++ [x])) ++ xs) in * by (cbn [app]; now rewrite <- app_assoc).
    apply IH; [exact P2|exact M|].
    change (x0 :: ys ++ [x]) with ((x0 :: ys) ++ [x]) in *. apply manageable_app in M as [M _].
    rewrite rmats_app. cbn [rmats]. rewrite rmul_id_l. unfold total. rewrite app_length, plus_INR, total_zoom_app. cbn [List.length total_zoom].
    rewrite (Rplus_comm _ (INR 1)), (Rmult_comm _ (zoom x * 1)), Rmult_1_r. change (INR 1) with 1.
    apply deep_mul; auto using zoom_1.
    + now apply deep_posture.
    + lra.
    + apply (total_1 x0 ys).
    + apply (total_zoom_1 (x0 :: ys)).
    + unfold manageable in M. rewrite app_length, plus_INR, total_zoom_app in M. cbn [List.length total_zoom] in M. change (INR 1) with 1 in M.
      rewrite Rmult_1_r in M. rewrite (Rplus_comm 1), (Rmult_comm (zoom x)). exact M.
Qed.
Lemma deep_layer E x xs ms : accurate E -> Forall2 (fun m x => m = map_of E x) ms xs -> Forall plain_posture (x :: xs) -> manageable (x :: xs) ->
  deep (total (x :: xs)) (total_zoom (x :: xs)) (fold_left (fun acc m => affine_mul m acc) ms (map_of E x)) (rmats (x :: xs)).
Proof.
  intros A F P M. inversion P as [|? ? P1 P2]; subst.
  apply (deep_chain E A xs ms F x [] (map_of E x) P2 M). unfold total. cbn [List.length total_zoom rmats].
  rewrite rmul_id_l, Rmult_1_r. change (INR 1) with 1. now apply deep_posture.
Qed.
Lemma stands_layer E a c s i src ly parents view outside outer t tf : accurate E -> conv_animation E a = Ok c ->
  nth_error (source_layers a s) i = Some src -> nth_error (scope_layers c s) i = Some ly -> family (source_layers a s) src parents ->
  stands E view outside outer -> FrameSpec.placement E (scope_layers c s) ly outer t tf ->
  stands E view (layer_levels t (src :: parents) ++ outside) tf.
Proof.
  intros A H Hs Hl F S (ps & L & ->).
  destruct (family_ancestors E a c s t H _ _ F i ly Hs Hl) as (ps' & An & St).
  assert (ps = ps') as ->.
  { destruct L as [L|(N & _)]; [eapply ancestors_fun; eauto|]. now destruct (N ps'). }
  destruct (Forall2_sits _ _ _ _ (Forall2_cons _ _ (layer_sits E a c s i src ly t H Hs Hl) St)) as (xs & HX & HM).
  rewrite chain_product_map. inversion HM as [|? x ? xs' Own Rest]; subst. rewrite Own.
  apply (stands_deep E view outside outer _ (x :: xs') _ S).
  - clear - HX. unfold layer_levels. revert HX. generalize (src :: parents) (x :: xs'). induction 1; cbn [map]; constructor; auto.
  - discriminate.
  - intros P M. apply deep_layer; auto. clear - Rest. induction Rest as [|ly x ps xs Eq _ IH]; cbn [map]; constructor; auto.
Qed.
(** A group. *)
Lemma rrot_0 : rrot 0 = rtrans (0, 0). Proof. unfold rrot, rtrans. rewrite cos_0, sin_0. cbn [fst snd]. f_equal; lra. Qed.
Lemma upright_matrix : rmats [upright] = rtrans (0, 0).
Proof.
  cbn [rmats]. rewrite rmul_id_l. unfold pmat, upright, real_point, real_vec2.
  cbn [po_position po_anchor po_scale po_rotation po_skew po_axis px py vx vy]. rewrite f0_R, f100_R, rslant_0.
  unfold rad. replace (0 * PI / 180) with 0 by lra. rewrite rrot_0.
  assert (S1 : rscale (100, 100) = rtrans (0, 0)) by (unfold rscale, rtrans; cbn [fst snd]; f_equal; lra). rewrite S1.
  rewrite Ropp_0. now rewrite !rmul_id_r.
Qed.
Lemma upright_zoom : total_zoom [upright] = 1.
Proof.
  cbn [total_zoom]. unfold zoom, upright. cbn [po_scale po_skew vx vy]. rewrite f0_R, f100_R.
  replace (0 * PI / 180) with 0 by lra. rewrite tan_0, Rabs_R0. rewrite (Rabs_pos_eq 100) by lra.
  unfold Rmax at 2. destruct (Rle_dec 100 100); unfold Rmax; destruct (Rle_dec 1 (100 / 100)); lra.
Qed.
Lemma stands_group E ge np it cix shapes gt t view levels tf time : accurate E ->
  becomes E (AsGroup ge np it cix) (ShGroup shapes gt) -> ImportSpec.last_transform it t ->
  stands E view levels tf -> stands E view ((option_map trs_t t, time) :: levels) (affine_mul tf (group_tf E gt time)).
Proof.
  intros A B L S. change ((option_map trs_t t, time) :: levels) with ([(option_map trs_t t, time)] ++ levels).
  destruct t as [t|]; cbn [option_map].
  - destruct (C50_group _ _ _ _ _ _ _ _ B L) as (g & -> & (position & anchor & scale & rotation & skew & axis & H1 & H2 & H3 & H4 & H5 & H6 & Eq) & _).
    set (x := mkPosture (position time) (anchor time) (scale time) (rotation time) (skew time) (axis time)).
    apply (stands_deep E view levels tf _ [x] _ S).
    + constructor; [|constructor]. cbn. now exists position, anchor, scale, rotation, skew, axis.
    + discriminate.
    + intros P M. cbn [group_tf]. rewrite Eq. change (placement E _ _ _ _ _ _) with (map_of E x).
      apply (deep_layer E x [] []); auto.
  - assert (gt = None) as ->.
    { inversion B as [? ? ? ? ? t' ? _ L' R| | | | | | | | |]; subst. destruct t' as [t'|].
      - exfalso. destruct L' as (l & r & -> & _). apply (L t'). apply in_or_app. right. now left.
      - now destruct gt. }
    apply (stands_deep E view levels tf _ [upright] _ S).
    + constructor; [|constructor]. reflexivity.
    + discriminate.
    + intros _ _. rewrite upright_matrix, upright_zoom. unfold total. cbn [List.length]. change (INR 1) with 1. apply deep_identity.
Qed.

(** * Points *)
Lemma feqb_fin x y : fin y -> feqb x y = true -> fin x /\ B2R x = B2R y.
Proof.
  intros Fy H. assert (Fx : fin x).
  { destruct x as [|sx| |]; try reflexivity; destruct y as [|sy| |]; try discriminate Fy; try discriminate H; destruct sx; discriminate H. }
  split; [exact Fx|]. apply feqb_eq; assumption.
Qed.
Lemma stands_sits E view levels m m' : stands E view levels m -> same_place m' m -> sits_through E (1 / 100) view levels m'.
Proof.
  intros (xs & F & V) S. exists xs. split; [exact F|]. rewrite (Forall2_len _ _ _ F). intros P M. specialize (V P M).
  assert (K : forall v, bounded_by 8192 v -> finite_map m /\ within (1 / 100) (moved m v) (moved view (through xs v))).
  { intros v B. rewrite <- rmats_through. change (moved view (rapply (rmats xs) v)) with (rapply (view_matrix view) (rapply (rmats xs) v)).
    rewrite <- rapply_mul. apply (viewed_point _ _ _ _ _ V); auto.
    - apply pos_INR.
    - destruct xs as [|x xs]; [unfold total; cbn; lra|]. pose proof (total_1 x xs) as T. rewrite <- (Rmult_1_r (total (x :: xs))) at 1. apply Rmult_le_compat_l; lra.
    - apply total_zoom_1. }
  assert (Fm : finite_map m) by (apply (K (0, 0)); split; cbn [fst snd]; rewrite Rabs_R0; lra).
  destruct S as [->|S]; [split; [exact Fm|intros v B; now apply K]|].
  unfold affine_eqb in S. repeat rewrite andb_true_iff in S. destruct S as (((((S1 & S2) & S3) & S4) & S5) & S6).
  pose proof Fm as (FA & FB & FC & FD & FX & FY).
  apply feqb_fin in S1 as [A1 E1], S2 as [A2 E2], S3 as [A3 E3], S4 as [A4 E4], S5 as [A5 E5], S6 as [A6 E6]; auto.
  split; [now repeat split|]. intros v B. destruct (K v B) as [_ W]. unfold moved at 1. rewrite E1, E2, E3, E4, E5, E6. exact W.
Qed.

(** * Opacities *)
Definition dims (E : Ext) (alpha : f64) (shades : list level) (x : f64) : Prop :=
  exists os, Forall2 (level_opacity E) shades os /\
    (Forall percent os -> fin alpha -> 0 <= B2R alpha <= 1 -> INR (List.length shades) <= 500001 ->
     approx x (B2R alpha * veil os) (INR (List.length shades) / 562949953421312)).
Lemma dims_caller E alpha : dims E alpha [] alpha.
Proof.
  exists []. split; [constructor|]. intros _ F _ _. split; [exact F|]. cbn [veil List.length INR].
  replace (B2R alpha - B2R alpha * 1) with 0 by ring. rewrite Rabs_R0. lra.
Qed.
Lemma veil_range os : Forall percent os -> 0 <= veil os <= 1.
Proof.
  induction 1 as [|o os [_ H] _ IH]; cbn [veil]; [lra|]. split.
  - apply Rmult_le_pos; [|lra]. lra.
  - replace 1 with (1 * 1) by ring. apply Rmult_le_compat; lra.
Qed.
Lemma faded a v : 0 <= a <= 1 -> 0 <= v <= 1 -> Rabs (a * v) <= 1.
Proof. intros H K. rewrite Rabs_pos_eq by (apply Rmult_le_pos; lra). replace 1 with (1 * 1) by ring. apply Rmult_le_compat; lra. Qed.
Lemma dims_step E alpha shades l o x y : dims E alpha shades x -> level_opacity E l o ->
  (forall r e, percent o -> approx x r e -> Rabs r <= 1 -> 0 <= e <= / 1000000000 -> approx y (r * (B2R o / 100)) (e + 8 * u52)) ->
  dims E alpha (l :: shades) y.
Proof.
  intros (os & F & H) L St. exists (o :: os). split; [now constructor|]. intros P Fa Ra N. inversion P as [|? ? P1 P2]; subst.
  cbn [List.length] in N |- *. rewrite S_INR in N |- *. pose proof (pos_INR (List.length shades)) as Np.
  specialize (H P2 Fa Ra ltac:(lra)).
  assert (B := faded _ _ Ra (veil_range os P2)).
  specialize (St _ _ P1 H B). cbn [veil].
  replace (B2R alpha * (B2R o / 100 * veil os)) with (B2R alpha * veil os * (B2R o / 100)) by ring.
  replace ((INR (List.length shades) + 1) / 562949953421312) with (INR (List.length shades) / 562949953421312 + 8 * u52) by (unfold u52; lra).
  apply St. lra.
Qed.
Lemma approx_exact x : fin x -> approx x (B2R x) 0.
Proof. intros F. split; [exact F|]. replace (B2R x - B2R x) with 0 by ring. rewrite Rabs_R0. lra. Qed.
Lemma f100_fin : fin f100. Proof. reflexivity. Qed.
Lemma fade_layer x o r e : percent o -> approx x r e -> Rabs r <= 1 -> 0 <= e <= / 1000000000 ->
  approx (fdiv (fmul x o) f100) (r * (B2R o / 100)) (e + 8 * u52).
Proof.
  intros [Fo Ro] H Hr He.
  assert (Bo : Rabs (B2R o) <= 100) by (rewrite Rabs_pos_eq; lra).
  assert (M : approx (fmul x o) (r * B2R o) (100 * e + u52 * (102))).
  { eapply (near_mul x o r (B2R o) e 0 1 100); [exact H|now apply approx_exact|exact Hr|exact Bo|lra|lra|]. unfold u52. lra. }
  replace (r * (B2R o / 100)) with (r * B2R o / 100) by lra.
  eapply (approx_div _ _ _ _ _ 100); [exact M|apply f100_fin|apply f100_R|lra| |unfold u52; lra|unfold u52; lra].
  rewrite Rabs_mult. replace 100 with (1 * 100) by ring. apply Rmult_le_compat; auto using Rabs_pos.
Qed.
Lemma fade_group x o r e : percent o -> approx x r e -> Rabs r <= 1 -> 0 <= e <= / 1000000000 ->
  approx (fmul x (fdiv o f100)) (r * (B2R o / 100)) (e + 8 * u52).
Proof.
  intros [Fo Ro] H Hr He.
  assert (Bo : Rabs (B2R o) <= 100) by (rewrite Rabs_pos_eq; lra).
  assert (M : approx (fdiv o f100) (B2R o / 100) (u52 * 2)).
  { eapply (approx_div _ _ _ _ 0 100); [now apply approx_exact|apply f100_fin|apply f100_R|lra|exact Bo|lra|unfold u52; lra]. }
  eapply (near_mul x _ r (B2R o / 100) e (u52 * 2) 1 1); [exact H|exact M|exact Hr| |lra|unfold u52; lra|].
  - rewrite Rabs_pos_eq; lra.
  - assert (e * (u52 * 2) <= / 1000000000 * (u52 * 2)) by (apply Rmult_le_compat_r; unfold u52; lra).
    assert (u52 * ((1 + e) * (1 + u52 * 2) + 1) <= u52 * (2 + / 100000000)).
    { apply Rmult_le_compat_l; [unfold u52; lra|]. assert ((1 + e) * (1 + u52 * 2) <= (1 + / 1000000000) * (1 + u52 * 2)) by (apply Rmult_le_compat_r; unfold u52; lra).
      unfold u52 in *. lra. }
    unfold u52 in *. lra.
Qed.
Lemma fade_one x r e : approx x r e -> Rabs r <= 1 -> 0 <= e <= / 1000000000 -> approx (fmul x f1) (r * (100 / 100)) (e + 8 * u52).
Proof.
  intros H Hr He. replace (100 / 100) with 1 by lra.
  eapply (near_mul x f1 r 1 e 0 1 1); [exact H| |exact Hr|rewrite Rabs_R1; lra|lra|lra|unfold u52; lra].
  split; [reflexivity|]. rewrite f1_R. replace (1 - 1) with 0 by ring. rewrite Rabs_R0. lra.
Qed.
Lemma dims_layer E a c s i src ly alpha shades x t : conv_animation E a = Ok c -> nth_error (source_layers a s) i = Some src ->
  layer_reads E (source_layers a s) i src ly -> dims E alpha shades x -> dims E alpha (layer_levels t [src] ++ shades) (dimmed E ly x t).
Proof.
  intros H Hs L D. destruct (br_transform _ _ _ (lr_base _ _ _ _ _ L)) as [(u & R & St) _].
  destruct (transform_means_reads E _ _ _ _ _ R St) as [_ O]. cbn [layer_levels map app].
  eapply (dims_step E alpha shades _ (eval E (ly_opacity ly) t)); [exact D| |].
  - cbn [level_opacity fst snd]. exists (fun frame => eval E (ly_opacity ly) frame). now split.
  - intros r e. apply fade_layer.
Qed.
Lemma last_transform_fun it t u : ImportSpec.last_transform it t -> ImportSpec.last_transform it u -> t = u.
Proof.
  destruct t as [t|], u as [u|]; cbn.
  - intros (l & r & -> & N) (l' & r' & Eq & N'). f_equal.
    assert (G : forall l l', l ++ AsTransform t :: r = l' ++ AsTransform u :: r' -> t = u).
    { clear - N N'. induction l as [|x l IH]; intros [|y l'] Eq; cbn in Eq.
      - now injection Eq as -> _.
      - injection Eq as _ Eq. exfalso. apply (N u). rewrite Eq. apply in_elt.
      - injection Eq as _ Eq. exfalso. apply (N' t). rewrite <- Eq. apply in_elt.
      - injection Eq as _ Eq. eauto. }
    eapply G; eauto.
  - intros (l & r & -> & _) N. exfalso. apply (N t). apply in_elt.
  - intros N (l & r & -> & _). exfalso. apply (N u). apply in_elt.
  - reflexivity.
Qed.
Lemma dims_group E ge np it cix shapes gt t alpha shades x time :
  becomes E (AsGroup ge np it cix) (ShGroup shapes gt) -> ImportSpec.last_transform it t ->
  dims E alpha shades x -> dims E alpha ((option_map trs_t t, time) :: shades) (fmul x (group_alpha E gt time)).
Proof.
  intros B L D. destruct t as [t|]; cbn [option_map].
  - destruct (C50_group _ _ _ _ _ _ _ _ B L) as (g & -> & _ & O). cbn [group_alpha].
    eapply (dims_step E alpha shades _ (eval E (gt_opacity g) time)); [exact D| |].
    + cbn [level_opacity fst snd]. exists (fun frame => eval E (gt_opacity g) frame). now split.
    + intros r e. apply fade_group.
  - assert (gt = None) as ->.
    { inversion B as [? ? ? ? ? t' ? _ L' R| | | | | | | | |]; subst. rewrite (last_transform_fun _ _ _ L' L) in R. now destruct gt. }
    cbn [group_alpha]. eapply (dims_step E alpha shades _ f100); [exact D|reflexivity|].
    intros r e _. rewrite f100_R. apply fade_one.
Qed.
Lemma dims_shines E alpha shades y t d al : becomes E y (ShDraw d) -> dims E alpha shades al ->
  shines E alpha shades y t (fdiv (fmul al (eval E (dr_opacity d) t)) f100).
Proof.
  intros B (os & F & H). exists (eval E (dr_opacity d) t), os. split; [|split; [exact F|]].
  - inversion B as [|st c r d' _ _ O|st bs c d' s _ _ _ O|st g r d' _ _ O|st bs g d' s _ _ _ O| | | | |]; subst; cbn [style_opacity].
    + exists (fun frame => eval E (dr_opacity d) frame). split; [|reflexivity]. now apply scalar_means_reads.
    + exists (fun frame => eval E (dr_opacity d) frame). split; [|reflexivity]. now apply scalar_means_reads.
    + now rewrite O.
    + now rewrite O.
  - intros P Fa Ra N. inversion P as [|? ? P1 P2]; subst. pose proof (pos_INR (List.length shades)) as Np.
    specialize (H P2 Fa Ra ltac:(lra)). assert (Bd := faded _ _ Ra (veil_range os P2)).
    destruct (fade_layer al _ _ _ P1 H Bd ltac:(lra)) as [Fx Ex]. split; [exact Fx|]. cbn [veil].
    replace (B2R alpha * (B2R (eval E (dr_opacity d) t) / 100 * veil os)) with (B2R alpha * veil os * (B2R (eval E (dr_opacity d) t) / 100)) by ring.
    apply Rle_trans with (1 := Ex). unfold u52. lra.
Qed.

(** * Lists of items *)
Lemma item_more l z g x : item_in l g x -> item_in (l ++ z) g x.
Proof.
  intros H. inversion H as [? ? Hin|? ge np it cix t groups ? Hin L I]; subst; [apply item_here|eapply item_group; [|exact L|exact I]];
    apply in_or_app; left; eassumption.
Qed.
Lemma inks_more l z g x sg y : inks l g x sg y -> inks (l ++ z) g x sg y.
Proof.
  intros H. inversion H as [l1 l2 ? ? ? S I|? ge np it cix t groups ? sgroups ? Hin L I]; subst.
  - rewrite <- app_assoc. cbn [app]. now apply inks_here.
  - eapply inks_group; [apply in_or_app; left; exact Hin|exact L|exact I].
Qed.
Lemma item_snoc l z g x : item_in (l ++ [z]) g x -> item_in l g x \/ (g = [] /\ x = z) \/
  exists ge np it cix t g', z = AsGroup ge np it cix /\ g = g' ++ [option_map trs_t t] /\ ImportSpec.last_transform it t /\ item_in it g' x.
Proof.
  intros H. inversion H as [? ? Hin|? ge np it cix t groups ? Hin L I]; subst; apply in_app_or in Hin as [Hin|[->|[]]].
  - left. now apply item_here.
  - right. left. now split.
  - left. eapply item_group; eauto.
  - right. right. exists ge, np, it, cix, t, groups. auto.
Qed.
Lemma inks_snoc l z g x sg y : inks (l ++ [z]) g x sg y -> inks l g x sg y \/ (style_item z /\ item_in l g x /\ sg = [] /\ y = z) \/
  exists ge np it cix t g' sg', z = AsGroup ge np it cix /\ g = g' ++ [option_map trs_t t] /\ sg = sg' ++ [option_map trs_t t] /\
    ImportSpec.last_transform it t /\ inks it g' x sg' y.
Proof.
  intros H. inversion H as [l1 l2 ? ? ? S I Eq|? ge np it cix t groups ? sgroups ? Hin L I]; subst.
  - destruct l2 as [|w l2] using rev_ind.
    + apply app_inj_tail in Eq as [-> ->]. right. left. auto.
    + clear IHl2. rewrite app_comm_cons, app_assoc in Eq. apply app_inj_tail in Eq as [<- ->]. left. now apply inks_here.
  - apply in_app_or in Hin as [Hin|[->|[]]].
    + left. eapply inks_group; eauto.
    + right. right. exists ge, np, it, cix, t, groups, sgroups. auto 6.
Qed.
Lemma inks_item l g x sg y : inks l g x sg y -> item_in l g x.
Proof.
  induction 1 as [l1 l2 y groups x S I|l ge np it cix t groups x sg y Hin L _ IH]; [now apply item_more|]. eapply item_group; eauto.
Qed.
Lemma item_yields l g x : item_in l g x -> yields x -> exists w, In w l /\ yields w.
Proof.
  induction 1 as [l x Hin|l ge np it cix t groups x Hin L _ IH]; intros Y; [now exists x|].
  destruct (IH Y) as (w & H1 & H2). exists (AsGroup ge np it cix). split; [exact Hin|]. eapply y_group; eauto.
Qed.
Lemma style_yields y : style_item y -> yields y. Proof. destruct y; cbn; try contradiction; constructor. Qed.
Lemma inks_yields l g x sg y : inks l g x sg y -> exists w, In w l /\ yields w.
Proof.
  induction 1 as [l1 l2 y groups x S I|l ge np it cix t groups x sg y Hin L _ (w & H1 & H2)].
  - exists y. split; [apply in_elt|now apply style_yields].
  - exists (AsGroup ge np it cix). split; [exact Hin|]. eapply y_group; eauto.
Qed.

(** * Shapes *)
Section Shapes.
  Variable E : Ext.
  Variable view : affine.
  Variable alpha0 : f64.
  Variable t : f64.
  Variable U : Prop.
  Hypothesis A : accurate E.
  Definition near_item (R : list (option s_transform) -> any_shape -> Prop) (levels : list level) (m : affine) : Prop :=
    exists groups x m', R groups x /\ stands E view (group_levels t groups ++ levels) m' /\ same_place m m'.
  Definition fine (R : list (option s_transform) -> any_shape -> Prop) (levels : list level) (o : outline) : Prop :=
    near_item (fun g x => R g x /\ outline_item x) levels (snd o) /\
    (U -> forall e, In e (fst o) -> near_item (fun g x => R g x /\ piece_of E x t e) levels (snd o)).
  Definition styled (sg : list (option s_transform)) (y : any_shape) (shades : list level) (s : style) : Prop :=
    exists d al, becomes E y (ShDraw d) /\ dims E alpha0 (group_levels t sg ++ shades) al /\ s = style_of E d al t.
  Definition holds (g : list (option s_transform)) (x : any_shape) (levels : list level) (o : outline) : Prop :=
    exists gm pre post m', becomes E x (ShGeometry gm) /\ fst o = pre ++ path_at E gm t ++ post /\
      stands E view (group_levels t g ++ levels) m' /\ same_place (snd o) m'.
  Record good_pic (done : list any_shape) (levels shades : list level) (p : pic) : Prop := {
    gp_outlines : Forall (fine (item_in done) levels) (pc_outlines p);
    gp_draws : forall d, In d (pc_draws p) -> exists sg y, styled sg y shades (fst d) /\
      Forall (fine (fun g x => inks done g x sg y) levels) (snd d);
    gp_all : U -> forall g x, item_in done g x -> outline_item x -> yields x -> exists o, In o (pc_outlines p) /\ holds g x levels o;
    gp_inked : U -> forall g x sg y, inks done g x sg y -> outline_item x -> yields x ->
      exists d o, In d (pc_draws p) /\ styled sg y shades (fst d) /\ In o (snd d) /\ holds g x levels o }.
  Lemma item_in_nil g x : ~ item_in [] g x.
  Proof. intros H. inversion H; subst; contradiction. Qed.
  Lemma inks_nil g x sg y : ~ inks [] g x sg y.
  Proof. intros H. apply inks_item in H. now apply item_in_nil in H. Qed.
  Lemma good_empty levels shades : good_pic [] levels shades pic_empty.
  Proof.
    split; cbn [pic_empty pc_outlines pc_draws]; [constructor|intros d []| |].
    - intros _ g x H. now apply item_in_nil in H.
    - intros _ g x sg y H. now apply inks_nil in H.
  Qed.
  Lemma near_mono (R S : list (option s_transform) -> any_shape -> Prop) levels m : (forall g x, R g x -> S g x) -> near_item R levels m -> near_item S levels m.
  Proof. intros H (g & x & m' & H1 & H2). exists g, x, m'. split; [now apply H|exact H2]. Qed.
  Lemma fine_mono (R S : list (option s_transform) -> any_shape -> Prop) levels o : (forall g x, R g x -> S g x) -> fine R levels o -> fine S levels o.
  Proof.
    intros H [H1 H2]. split; [eapply near_mono; [|exact H1]; intros g x [K1 K2]; auto|].
    intros u e He. eapply near_mono; [|exact (H2 u e He)]. intros g x [K1 K2]. auto.
  Qed.
  (** dropped items *)
  Lemma good_drop done z levels shades p : ~ yields z -> good_pic done levels shades p -> good_pic (done ++ [z]) levels shades p.
  Proof.
    intros N [G1 G2 G3 G4]. split.
    - eapply Forall_impl; [|exact G1]. intros o. apply fine_mono. intros g x. apply item_more.
    - intros d Hd. destruct (G2 d Hd) as (sg & y & S & F). exists sg, y. split; [exact S|].
      eapply Forall_impl; [|exact F]. intros o. apply fine_mono. intros g x. apply inks_more.
    - intros u g x H Ho Hy. apply item_snoc in H as [H|[[-> ->]|(ge & np & it & cix & tr & g' & -> & -> & L & H)]]; [now apply G3|contradiction|].
      exfalso. apply N. destruct (item_yields _ _ _ H Hy) as (w & W1 & W2). eapply y_group; eauto.
    - intros u g x sg y H Ho Hy. apply inks_snoc in H as [H|[(Sz & _)|(ge & np & it & cix & tr & g' & sg' & -> & -> & -> & L & H)]]; [now apply G4| |].
      + exfalso. apply N. now apply style_yields.
      + exfalso. apply N. destruct (inks_yields _ _ _ _ _ H) as (w & W1 & W2). eapply y_group; eauto.
  Qed.
  (** outlines *)
  Lemma Forall_join_last (P : outline -> Prop) l els : Forall P l ->
    (forall p tf, In (p, tf) l -> BatchSpec.last_transform l = Some tf -> P (p, tf) -> P (p ++ els, tf)) -> Forall P (join_last l els).
  Proof.
    induction l as [|[p tf] l IH]; intros F H; [constructor|]. inversion F as [|? ? F1 F2]; subst. cbn [join_last].
    destruct l as [|o l].
    - constructor; [|constructor]. apply H; [now left|reflexivity|exact F1].
    - constructor; [exact F1|]. apply IH; [exact F2|]. intros q u Hin Hl. apply H; [now right|].
      unfold BatchSpec.last_transform in *. cbn [rev] in *. destruct (rev l ++ [o]) as [|[x y] r] eqn:R; [discriminate|]. cbn. exact Hl.
  Qed.
  Lemma join_last_keeps l els o : In o l -> exists post, In (fst o ++ post, snd o) (join_last l els).
  Proof.
    induction l as [|[p tf] l IH]; [intros []|]. intros H. cbn [join_last]. destruct l as [|o' l].
    - destruct H as [<-|[]]. exists els. now left.
    - destruct H as [<-|H]; [exists []; rewrite app_nil_r; now left|]. destruct (IH H) as (post & Hp). exists post. now right.
  Qed.
  Lemma join_last_new l els u : BatchSpec.last_transform l = Some u -> exists pre, In (pre ++ els, u) (join_last l els).
  Proof.
    induction l as [|[p tf] l IH]; [discriminate|]. intros H. cbn [join_last]. destruct l as [|o' l].
    - cbn in H. injection H as <-. exists p. now left.
    - assert (H' : BatchSpec.last_transform (o' :: l) = Some u).
      { unfold BatchSpec.last_transform in *. cbn [rev] in *. destruct (rev l ++ [o']) as [|[x y] r] eqn:R; [now destruct (rev l)|]. cbn in H. exact H. }
      destruct (IH H') as (pre & Hp). exists pre. now right.
  Qed.
  Lemma holds_longer g x levels o post : holds g x levels o -> holds g x levels (fst o ++ post, snd o).
  Proof.
    intros (gm & pre & post' & m' & H1 & H2 & H3 & H4). exists gm, pre, (post' ++ post), m'. split; [exact H1|].
    split; [|split; assumption]. cbn [fst snd]. rewrite H2, <- !app_assoc. reflexivity.
  Qed.
  Lemma not_group_item z : outline_item z -> forall ge np it cix, z <> AsGroup ge np it cix.
  Proof. intros H ge np it cix ->. contradiction. Qed.
  Lemma not_style_outline z : outline_item z -> ~ style_item z.
  Proof. destruct z; cbn; tauto. Qed.
  Lemma good_add done levels shades tf p x g els : stands E view levels tf -> outline_item x -> becomes E x (ShGeometry g) ->
    geometry_eval E g t = Ok els -> good_pic done levels shades p -> good_pic (done ++ [x]) levels shades (add_path p tf els).
  Proof.
    intros S Ho Hb Hg [G1 G2 G3 G4].
    assert (Pa : path_at E g t = els) by (unfold path_at; now rewrite Hg).
    assert (In1 : item_in (done ++ [x]) [] x) by (apply item_here, in_or_app; right; now left).
    assert (New : forall m, same_place m tf -> forall e, In e els -> near_item (fun g x' => item_in (done ++ [x]) g x' /\ piece_of E x' t e) levels m).
    { intros m Sm e He. exists [], x, tf. split; [split; [exact In1|]|split; [exact S|exact Sm]].
      exists g. split; [exact Hb|]. now rewrite Pa. }
    split; cbn [add_path pc_outlines pc_draws].
    - assert (F : Forall (fine (item_in (done ++ [x])) levels) (pc_outlines p)).
      { eapply Forall_impl; [|exact G1]. intros o. apply fine_mono. intros g' x'. apply item_more. }
      destruct (joins p tf) eqn:J.
      + apply Forall_join_last; [exact F|]. intros q u _ Hl [H1 H2]. cbn [fst snd] in *. split; [exact H1|]. cbn [fst snd].
        unfold joins in J. rewrite Hl in J. apply andb_true_iff in J as [_ J].
        intros HU e He. apply in_app_or in He as [He|He]; [now apply H2|]. apply New; [now right|exact He].
      + apply Forall_app. split; [exact F|]. constructor; [|constructor]. split; cbn [fst snd].
        * exists [], x, tf. split; [now split|]. split; [exact S|now left].
        * intros _ e He. apply New; [now left|exact He].
    - intros d Hd. destruct (G2 d Hd) as (sg & y & St & F). exists sg, y. split; [exact St|].
      eapply Forall_impl; [|exact F]. intros o. apply fine_mono. intros g' x'. apply inks_more.
    - intros u g' x' H Ho' Hy. apply item_snoc in H as [H|[[-> ->]|(ge & np & it & cix & tr & g'' & -> & _)]]; [| |contradiction].
      + destruct (G3 u g' x' H Ho' Hy) as (o & O1 & O2). destruct (joins p tf).
        * destruct (join_last_keeps _ els _ O1) as (post & Hp). exists (fst o ++ post, snd o). split; [exact Hp|now apply holds_longer].
        * exists o. split; [apply in_or_app; now left|exact O2].
      + destruct (joins p tf) eqn:J.
        * unfold joins in J. destruct (BatchSpec.last_transform (pc_outlines p)) as [v|] eqn:Hl; [|rewrite andb_false_r in J; discriminate].
          apply andb_true_iff in J as [_ J].
          destruct (join_last_new _ els _ Hl) as (pre & Hp). exists (pre ++ els, v). split; [exact Hp|].
          exists g, pre, [], tf. split; [exact Hb|]. cbn [fst snd]. rewrite Pa, app_nil_r. split; [reflexivity|]. split; [exact S|now right].
        * exists (els, tf). split; [apply in_or_app; right; now left|].
          exists g, [], [], tf. split; [exact Hb|]. cbn [fst snd app]. rewrite Pa, app_nil_r. split; [reflexivity|]. split; [exact S|now left].
    - intros u g' x' sg y H Ho' Hy. apply inks_snoc in H as [H|[(Sz & _)|(ge & np & it & cix & tr & g'' & sg' & -> & _)]]; [now apply G4| |contradiction].
      exfalso. exact (not_style_outline _ Ho Sz).
  Qed.
  (** styles *)
  Lemma good_draw done levels shades al p y d : style_item y -> becomes E y (ShDraw d) -> dims E alpha0 shades al ->
    good_pic done levels shades p ->
    good_pic (done ++ [y]) levels shades (mkPic (pc_outlines p) (pc_draws p ++ [(style_of E d al t, pc_outlines p)]) false true).
  Proof.
    intros Sy B D [G1 G2 G3 G4].
    assert (St : styled [] y shades (style_of E d al t)) by (exists d, al; auto).
    split; cbn [pc_outlines pc_draws].
    - eapply Forall_impl; [|exact G1]. intros o. apply fine_mono. intros g' x'. apply item_more.
    - intros d' Hd. apply in_app_or in Hd as [Hd|[<-|[]]].
      + destruct (G2 d' Hd) as (sg & y' & St' & F). exists sg, y'. split; [exact St'|].
        eapply Forall_impl; [|exact F]. intros o. apply fine_mono. intros g' x'. apply inks_more.
      + exists [], y. split; [exact St|]. cbn [snd]. eapply Forall_impl; [|exact G1]. intros o. apply fine_mono.
        intros g' x' H. now apply inks_here.
    - intros u g' x' H Ho' Hy. apply item_snoc in H as [H|[[-> ->]|(ge & np & it & cix & tr & g'' & -> & _)]]; [now apply G3| |contradiction].
      exfalso. exact (not_style_outline _ Ho' Sy).
    - intros u g' x' sg y' H Ho' Hy. apply inks_snoc in H as [H|[(_ & H & -> & ->)|(ge & np & it & cix & tr & g'' & sg' & -> & _)]]; [| |contradiction].
      + destruct (G4 u g' x' sg y' H Ho' Hy) as (d' & o & D1 & D2 & D3 & D4). exists d', o. split; [apply in_or_app; now left|auto].
      + destruct (G3 u g' x' H Ho' Hy) as (o & O1 & O2). exists (style_of E d al t, pc_outlines p), o.
        split; [apply in_or_app; right; now left|]. auto.
  Qed.
  (** groups *)
  Lemma levels_lift g (tr : option transform_shape) (levels : list level) :
    group_levels t g ++ (option_map trs_t tr, t) :: levels = group_levels t (g ++ [option_map trs_t tr]) ++ levels.
  Proof. unfold group_levels. rewrite map_app, <- app_assoc. reflexivity. Qed.
  Lemma fine_lift (R S : list (option s_transform) -> any_shape -> Prop) levels tr o :
    (forall g x, R g x -> S (g ++ [option_map trs_t tr]) x) ->
    fine R ((option_map trs_t tr, t) :: levels) o -> fine S levels o.
  Proof.
    intros H [H1 H2]. split.
    - destruct H1 as (g & x & m' & [K1 K1'] & K2 & K3). rewrite levels_lift in K2. exists (g ++ [option_map trs_t tr]), x, m'. auto 6.
    - intros u e He. destruct (H2 u e He) as (g & x & m' & [K1 K1'] & K2 & K3). rewrite levels_lift in K2. exists (g ++ [option_map trs_t tr]), x, m'. auto 6.
  Qed.
  Lemma holds_lift g x levels tr o : holds g x ((option_map trs_t tr, t) :: levels) o -> holds (g ++ [option_map trs_t tr]) x levels o.
  Proof. intros (gm & pre & post & m' & H1 & H2 & H3 & H4). rewrite levels_lift in H3. exists gm, pre, post, m'. auto. Qed.
  Lemma styled_lift sg y shades tr s : styled sg y ((option_map trs_t tr, t) :: shades) s -> styled (sg ++ [option_map trs_t tr]) y shades s.
  Proof. intros (d & al & H1 & H2 & H3). rewrite levels_lift in H2. exists d, al. auto. Qed.
  Lemma good_include done levels shades ge np it cix tr p child : ImportSpec.last_transform it tr -> good_pic done levels shades p ->
    good_pic it ((option_map trs_t tr, t) :: levels) ((option_map trs_t tr, t) :: shades) child ->
    good_pic (done ++ [AsGroup ge np it cix]) levels shades (include p child).
  Proof.
    intros L [G1 G2 G3 G4] [C1 C2 C3 C4].
    assert (Hin : In (AsGroup ge np it cix) (done ++ [AsGroup ge np it cix])) by (apply in_or_app; right; now left).
    split; cbn [include pc_outlines pc_draws].
    - apply Forall_app. split.
      + eapply Forall_impl; [|exact G1]. intros o. apply fine_mono. intros g' x'. apply item_more.
      + eapply Forall_impl; [|exact C1]. intros o. apply fine_lift. intros g' x' H. eapply item_group; eauto.
    - intros d Hd. apply in_app_or in Hd as [Hd|Hd].
      + destruct (G2 d Hd) as (sg & y & St & F). exists sg, y. split; [exact St|].
        eapply Forall_impl; [|exact F]. intros o. apply fine_mono. intros g' x'. apply inks_more.
      + destruct (C2 d Hd) as (sg & y & St & F). exists (sg ++ [option_map trs_t tr]), y. split; [now apply styled_lift|].
        eapply Forall_impl; [|exact F]. intros o. apply fine_lift. intros g' x' H. eapply inks_group; eauto.
    - intros u g' x' H Ho' Hy. apply item_snoc in H as [H|[[-> ->]|(ge' & np' & it' & cix' & tr' & g'' & Eq & -> & L' & H)]]; [|contradiction|].
      + destruct (G3 u g' x' H Ho' Hy) as (o & O1 & O2). exists o. split; [apply in_or_app; now left|exact O2].
      + injection Eq as <- <- <- <-. rewrite (last_transform_fun _ _ _ L' L).
        destruct (C3 u g'' x' H Ho' Hy) as (o & O1 & O2). exists o. split; [apply in_or_app; now right|]. now apply holds_lift.
    - intros u g' x' sg y H Ho' Hy. apply inks_snoc in H as [H|[([] & _)|(ge' & np' & it' & cix' & tr' & g'' & sg'' & Eq & -> & -> & L' & H)]].
      + destruct (G4 u g' x' sg y H Ho' Hy) as (d & o & O1 & O2 & O3 & O4). exists d, o. split; [apply in_or_app; now left|auto].
      + injection Eq as <- <- <- <-. rewrite (last_transform_fun _ _ _ L' L).
        destruct (C4 u g'' x' sg'' y H Ho' Hy) as (d & o & O1 & O2 & O3 & O4). exists d, o. split; [apply in_or_app; now right|].
        split; [now apply styled_lift|]. split; [exact O3|now apply holds_lift].
  Qed.
  (** trims *)
  Lemma mapM_Forall {X Y} (P : X -> Prop) (Q : Y -> Prop) (f : X -> res Y) l l' : mapM f l = Ok l' ->
    (forall x y, In x l -> P x -> f x = Ok y -> Q y) -> Forall P l -> Forall Q l'.
  Proof.
    revert l'. induction l as [|x l IH]; intros l' H K F; cbn [mapM] in H.
    - injection H as <-. constructor.
    - inversion F as [|? ? F1 F2]; subst. destruct (f x) as [y| |] eqn:Fx; cbn in H; try discriminate.
      destruct (mapM f l) as [ys| |] eqn:Fl; cbn in H; try discriminate. injection H as <-.
      constructor; [eapply K; eauto; now left|]. apply (IH ys eq_refl); [|exact F2]. intros z w Hz. apply K. now right.
  Qed.
  Lemma fine_trim R levels tr o o' : ~ U -> trim_outline E tr o = Ok o' -> fine R levels o -> fine R levels o'.
  Proof.
    intros N H [H1 _]. assert (Eq : snd o' = snd o).
    { unfold trim_outline in H. destruct (trim_normalized tr) as [[f s]|]; [|now injection H as <-].
      destruct (trim_is_full f s); [now injection H as <-|]. destruct (trim_path E f s (fst o)); cbn in H; try discriminate. now injection H as <-. }
    split; [rewrite Eq; exact H1|]. intros u. contradiction.
  Qed.
  Lemma good_trim done levels shades tr z p p' : ~ U -> trim_pic E tr p = Ok p' -> good_pic done levels shades p -> good_pic (done ++ [z]) levels shades p'.
  Proof.
    intros N H [G1 G2 G3 G4]. unfold trim_pic in H.
    destruct (mapM (trim_outline E tr) (pc_outlines p)) as [os| |] eqn:Q1; cbn in H; try discriminate.
    match type of H with context [mapM ?f (pc_draws p)] => destruct (mapM f (pc_draws p)) as [ds| |] eqn:Q2 end; cbn in H; try discriminate.
    injection H as <-. split; cbn [pc_outlines pc_draws]; try (intros u; contradiction).
    - eapply (mapM_Forall (fine (item_in done) levels)); [exact Q1| |exact G1]. intros x y _ Fx Hy. eapply fine_trim; eauto.
      eapply fine_mono; [|exact Fx]. intros g' x'. apply item_more.
    - assert (F : Forall (fun d => exists sg y, styled sg y shades (fst d) /\ Forall (fine (fun g x => inks (done ++ [z]) g x sg y) levels) (snd d)) ds).
      { eapply (mapM_Forall (fun d => exists sg y, styled sg y shades (fst d) /\ Forall (fine (fun g x => inks done g x sg y) levels) (snd d)));
          [exact Q2| |now apply Forall_forall].
        intros d d' _ (sg & y & St & F) Hd. destruct (mapM (trim_outline E tr) (snd d)) as [os'| |] eqn:Q3; cbn in Hd; try discriminate.
        injection Hd as <-. exists sg, y. cbn [fst snd]. split; [exact St|].
        eapply (mapM_Forall (fine (fun g x => inks done g x sg y) levels)); [exact Q3| |exact F]. intros x w _ Fx Hy. eapply fine_trim; eauto.
        eapply fine_mono; [|exact Fx]. intros g' x'. apply inks_more. }
      intros d Hd. rewrite Forall_forall in F. now apply F.
  Qed.
  Lemma shapes_good :
    (forall l out, imports E l out -> forall done levels shades tf al p p', (U -> forall x, In x l -> untrimmed x) -> stands E view levels tf ->
      dims E alpha0 shades al -> fold_shapes (shape_pic E tf al t) out p = Ok p' -> good_pic done levels shades p -> good_pic (done ++ l) levels shades p') /\
    (forall x s, becomes E x s -> forall done levels shades tf al p p', (U -> untrimmed x) -> stands E view levels tf ->
      dims E alpha0 shades al -> shape_pic E tf al t s p = Ok p' -> good_pic done levels shades p -> good_pic (done ++ [x]) levels shades p').
  Proof.
    apply (import_mind E
      (fun l out _ => forall done levels shades tf al p p', (U -> forall x, In x l -> untrimmed x) -> stands E view levels tf ->
        dims E alpha0 shades al -> fold_shapes (shape_pic E tf al t) out p = Ok p' -> good_pic done levels shades p -> good_pic (done ++ l) levels shades p')
      (fun x s _ => forall done levels shades tf al p p', (U -> untrimmed x) -> stands E view levels tf ->
        dims E alpha0 shades al -> shape_pic E tf al t s p = Ok p' -> good_pic done levels shades p -> good_pic (done ++ [x]) levels shades p')).
    - intros done levels shades tf al p p' _ _ _ H F. cbn in H. injection H as <-. now rewrite app_nil_r.
    - intros x l out Nx _ IH done levels shades tf al p p' Hu S D H F.
      replace (done ++ x :: l) with ((done ++ [x]) ++ l) by (now rewrite <- app_assoc).
      eapply IH; eauto. { intros u y Hy. apply Hu; [exact u|now right]. } now apply good_drop.
    - intros x s l out _ _ IHx _ IH done levels shades tf al p p' Hu S D H F. cbn [fold_shapes] in H.
      destruct (shape_pic E tf al t s p) as [q| |] eqn:Q; cbn in H; try discriminate.
      replace (done ++ x :: l) with ((done ++ [x]) ++ l) by (now rewrite <- app_assoc).
      eapply (IH (done ++ [x]) levels shades tf al q p'); eauto.
      + intros u y Hy. apply Hu; [exact u|now right].
      + eapply IHx; eauto. intros u. apply Hu; [exact u|now left].
    - intros ge np it cix shapes tr gt Im IH Lt Gt done levels shades tf al p p' Hu S D H F. cbn [shape_pic] in H.
      match type of H with context [fold_shapes ?f shapes pic_empty] => destruct (fold_shapes f shapes pic_empty) as [child| |] eqn:Q end;
        cbn in H; try discriminate. injection H as <-.
      assert (B : becomes E (AsGroup ge np it cix) (ShGroup shapes gt)) by (eapply bec_group; eauto).
      eapply good_include; [exact Lt|exact F|].
      change it with ([] ++ it) at 1. eapply IH; [| | |exact Q|apply good_empty].
      + intros u x Hx. specialize (Hu u). inversion Hu; subst; [auto|contradiction].
      + eapply stands_group; eauto.
      + eapply dims_group; eauto.
    - intros st c r d R1 R2 R3 done levels shades tf al p p' _ S D H F. cbn in H. injection H as <-.
      apply good_draw; auto; [exact I|]. now constructor.
    - intros st bs c d s R1 R2 R3 R4 done levels shades tf al p p' _ S D H F. cbn in H. injection H as <-.
      apply good_draw; auto; [exact I|]. econstructor; eauto.
    - intros st g r d R1 R2 R3 done levels shades tf al p p' _ S D H F. cbn in H. injection H as <-.
      apply good_draw; auto; [exact I|]. now constructor.
    - intros st bs g d s R1 R2 R3 R4 done levels shades tf al p p' _ S D H F. cbn in H. injection H as <-.
      apply good_draw; auto; [exact I|]. econstructor; eauto.
    - intros sh p0 s r g R1 R2 R3 done levels shades tf al p p' _ S D H F. cbn [shape_pic] in H.
      destruct (geometry_eval E (GRect g) t) as [els| |] eqn:G; cbn in H; try discriminate. injection H as <-.
      eapply good_add; eauto; [exact I|]. now constructor.
    - intros sh p0 s g R1 R2 done levels shades tf al p p' _ S D H F. cbn [shape_pic] in H.
      destruct (geometry_eval E (GEllipse g) t) as [els| |] eqn:G; cbn in H; try discriminate. injection H as <-.
      eapply good_add; eauto; [exact I|]. now constructor.
    - intros sh p0 or os r pt sy ir is g R done levels shades tf al p p' _ S D H F. cbn [shape_pic] in H.
      destruct (geometry_eval E g t) as [els| |] eqn:G; cbn in H; try discriminate. injection H as <-.
      eapply good_add; eauto; [exact I|]. now constructor.
    - intros sh ks g R done levels shades tf al p p' _ S D H F. cbn [shape_pic] in H.
      destruct (geometry_eval E g t) as [els| |] eqn:G; cbn in H; try discriminate. injection H as <-.
      eapply good_add; eauto; [exact I|]. now constructor.
    - intros m s e o mm tr vs ve vo _ _ _ _ done levels shades tf al p p' Hu S D H F. cbn [shape_pic] in H.
      assert (N : ~ U) by (intros u; specialize (Hu u); inversion Hu; subst; contradiction).
      eapply good_trim; eauto.
  Qed.
End Shapes.

(** * Frames *)
Lemma masks_in l k x : masks_read l k -> In x k -> exists m, In m l /\ mask_reads m x.
Proof.
  induction 1 as [|m l out _ _ IH|m y l out _ R _ IH]; [intros []| |].
  - intros H. destruct (IH H) as (z & H1 & H2). exists z. split; [now right|exact H2].
  - intros [->|H]; [exists m; split; [now left|exact R]|]. destruct (IH H) as (z & H1 & H2). exists z. split; [now right|exact H2].
Qed.
Lemma Forall2_In_r {X Y} (P : X -> Y -> Prop) l l' y : Forall2 P l l' -> In y l' -> exists x, In x l /\ P x y.
Proof.
  induction 1 as [|x z l l' H _ IH]; [intros []|]. intros [->|Hy]; [exists x; split; [now left|exact H]|].
  destruct (IH Hy) as (w & H1 & H2). exists w. split; [now right|exact H2].
Qed.
Lemma style_ink E y t d al p o : becomes E y (ShDraw d) -> p = mkPaint (sy_stroke (style_of E d al t)) (snd o) (style_brush E (style_of E d al t)) (fst o) ->
  in_ink E y t (fdiv (fmul al (eval E (dr_opacity d) t)) f100) p.
Proof. intros B ->. exists d. split; [exact B|]. split; reflexivity. Qed.
Lemma paint_of_pic E pc p : In p (pic_paints E pc) <-> exists d o, In d (pc_draws pc) /\ In o (snd d) /\
  p = mkPaint (sy_stroke (fst d)) (snd o) (style_brush E (fst d)) (fst o).
Proof.
  unfold pic_paints. split.
  - intros H. apply in_concat in H as (ps & H1 & H2). apply in_map_iff in H1 as (d & <- & Hd). apply in_rev in Hd.
    unfold paints_of in H2. apply in_map_iff in H2 as (o & <- & Ho). now exists d, o.
  - intros (d & o & H1 & H2 & ->). apply in_concat. exists (paints_of E d). split; [apply in_map, in_rev; now rewrite rev_involutive|].
    unfold paints_of. apply in_map_iff. now exists o.
Qed.
Section Frames.
  Variable E : Ext.
  Variable a : animation.
  Variable c : composition.
  Variable view : affine.
  Variable alpha0 : f64.
  Variable now : f64.
  Hypothesis A : accurate E.
  Hypothesis Im : conv_animation E a = Ok c.

  Lemma content_items src ly i s shs : layer_reads E (source_layers a s) i src ly -> ly_content ly = CShape shs ->
    ~ src_hidden src /\ imports E (items src) shs.
  Proof.
    intros L Hc.
    assert (Nh : ~ src_hidden src) by (intros Hh; rewrite (lr_hidden _ _ _ _ _ L Hh) in Hc; discriminate).
    split; [exact Nh|]. pose proof (lr_content _ _ _ _ _ L Nh) as C. rewrite Hc in C.
    destruct src; cbn in C; try discriminate; [destruct C as (x & C & _); discriminate|]. destruct C as (out & [= ->] & C). exact C.
  Qed.
  Lemma active_window src ly i s t : layer_reads E (source_layers a s) i src ly -> active ly t <->
    fleb (sl_ip (base_of src)) t = true /\ fltb t (sl_op (base_of src)) = true.
  Proof. intros L. unfold active. now rewrite (br_in _ _ _ (lr_base _ _ _ _ _ L)), (br_out _ _ _ (lr_base _ _ _ _ _ L)). Qed.
  Lemma inside_time src ly i s t : layer_reads E (source_layers a s) i src ly -> inner_time ly t = time_inside src t.
  Proof. intros L. unfold inner_time, time_inside. now rewrite (br_stretch _ _ _ (lr_base _ _ _ _ _ L)), (br_start _ _ _ (lr_base _ _ _ _ _ L)). Qed.
  Lemma picture_good l t levels shades tf al shs p : imports E (items l) shs -> stands E view levels tf -> dims E alpha0 shades al ->
    shapes_pic E tf al t shs = Ok p -> good_pic E view alpha0 t (forall y, In y (items l) -> untrimmed y) (items l) levels shades p.
  Proof.
    intros R S D H.
    exact (proj1 (shapes_good E view alpha0 t (forall y, In y (items l) -> untrimmed y) A) _ _ R [] levels shades tf al pic_empty p
      (fun u => u) S D H (good_empty E view alpha0 t _ _ _)).
  Qed.

  (** ** Nothing else is painted *)
  Section Sound.
  Hypothesis Pe : parents_end a.
  Definition placed (e : event) : Prop :=
    match e with
    | EvDraw p => painted E a now view alpha0 p
    | EvPushClip m (SkPath els) => clipped E a now view m els
    | _ => True
    end.
  Lemma picture_painted l t levels shades tf al shs p : layer_shown a now l t levels shades -> ~ src_hidden l -> imports E (items l) shs ->
    stands E view levels tf -> dims E alpha0 shades al -> shapes_pic E tf al t shs = Ok p -> Forall placed (map EvDraw (pic_paints E p)).
  Proof.
    intros Sh Nh R S D H. pose proof (picture_good _ _ _ _ _ _ _ _ R S D H) as G.
    apply Forall_forall. intros e He. apply in_map_iff in He as (q & <- & Hq). apply paint_of_pic in Hq as (d & o & Hd & Ho & Eq).
    destruct (gp_draws _ _ _ _ _ _ _ _ _ G d Hd) as (sg & y & (dr & al' & B & D' & Es) & F). rewrite Es in Eq.
    rewrite Forall_forall in F. destruct (F o Ho) as [G1 G2].
    exists l, t, levels, shades, sg, y, (fdiv (fmul al' (eval E (dr_opacity dr) t)) f100).
    split; [exact Sh|]. split; [exact Nh|]. split; [now apply dims_shines|]. split; [eapply style_ink; eauto|].
    rewrite Eq. cbn [pt_transform pt_path]. split.
    - destruct G1 as (groups & x & m' & [K1 K2] & K3 & K4). exists groups, x. split; [exact K1|]. split; [exact K2|]. eapply stands_sits; eauto.
    - intros u e He. destruct (G2 u e He) as (groups & x & m' & [K1 K2] & K3 & K4). exists groups, x.
      split; [exact K1|]. split; [exact K2|]. eapply stands_sits; eauto.
  Qed.
  Lemma Forall_silent (l : list event) : (forall e, In e l -> match e with EvDraw _ | EvPushClip _ (SkPath _) => False | _ => True end) -> Forall placed l.
  Proof. intros H. apply Forall_forall. intros e He. specialize (H e He). destruct e as [|? []| | | |]; try contradiction; exact I. Qed.
  Lemma frame_placed :
    (forall set ly idx outer alpha frame es, frame_layer E c set ly idx outer alpha frame es ->
       forall s i outside shades, set = scope_layers c s -> nth_error set i = Some ly ->
       (active ly frame -> performs a now s frame outside shades i) -> stands E view outside outer ->
       dims E alpha0 shades alpha -> Forall placed es) /\
    (forall set ly outer alpha frame es, frame_matte E c set ly outer alpha frame es ->
       forall s i outside shades, set = scope_layers c s -> nth_error set i = Some ly -> performs a now s frame outside shades i ->
       stands E view outside outer -> dims E alpha0 shades alpha -> Forall placed es) /\
    (forall ct tf alpha frame inner es, frame_content E c ct tf alpha frame inner es ->
       forall s i ly src parents outside shades, nth_error (scope_layers c s) i = Some ly -> nth_error (source_layers a s) i = Some src ->
         layer_reads E (source_layers a s) i src ly -> ly_content ly = ct -> inner = inner_time ly frame ->
         family (source_layers a s) src parents -> performs a now s frame outside shades i ->
         stands E view (layer_levels frame (src :: parents) ++ outside) tf -> dims E alpha0 (layer_levels frame [src] ++ shades) alpha -> Forall placed es) /\
    (forall set l tf alpha frame es, frame_layers E c set l tf alpha frame es ->
       forall s outside shades, set = scope_layers c s -> Forall (fun p => In (snd p) set /\ ly_is_mask (snd p) = false) l ->
       scene a now s frame outside shades -> stands E view outside tf -> dims E alpha0 shades alpha -> Forall placed es).
  Proof.
    apply (frame_mind E c
      (fun set ly idx outer alpha frame es _ =>
         forall s i outside shades, set = scope_layers c s -> nth_error set i = Some ly ->
         (active ly frame -> performs a now s frame outside shades i) -> stands E view outside outer ->
         dims E alpha0 shades alpha -> Forall placed es)
      (fun set ly outer alpha frame es _ =>
         forall s i outside shades, set = scope_layers c s -> nth_error set i = Some ly -> performs a now s frame outside shades i ->
         stands E view outside outer -> dims E alpha0 shades alpha -> Forall placed es)
      (fun ct tf alpha frame inner es _ =>
         forall s i ly src parents outside shades, nth_error (scope_layers c s) i = Some ly -> nth_error (source_layers a s) i = Some src ->
         layer_reads E (source_layers a s) i src ly -> ly_content ly = ct -> inner = inner_time ly frame ->
         family (source_layers a s) src parents -> performs a now s frame outside shades i ->
         stands E view (layer_levels frame (src :: parents) ++ outside) tf -> dims E alpha0 (layer_levels frame [src] ++ shades) alpha -> Forall placed es)
      (fun set l tf alpha frame es _ =>
         forall s outside shades, set = scope_layers c s -> Forall (fun p => In (snd p) set /\ ly_is_mask (snd p) = false) l ->
         scene a now s frame outside shades -> stands E view outside tf -> dims E alpha0 shades alpha -> Forall placed es)).
    - constructor.
    - intros set ly idx outer alpha frame tf matte paths inner Ac Pl _ IHm Fp _ IHc s i outside shades -> Hi Pf St Di.
      specialize (Pf Ac). destruct (scope_source _ _ _ _ _ _ Im Hi) as (src & Hs & L).
      destruct (Pe s src (nth_error_In _ _ Hs)) as (parents & Fa).
      assert (St' : stands E view (layer_levels frame (src :: parents) ++ outside) tf) by (eapply stands_layer; eauto).
      assert (Di' : dims E alpha0 (layer_levels frame [src] ++ shades) (dimmed E ly alpha frame)) by (eapply dims_layer; eauto).
      assert (Sh : layer_shown a now src frame (layer_levels frame (src :: parents) ++ outside) (layer_levels frame [src] ++ shades)).
      { exists s, outside, shades, i, parents. auto. }
      repeat (apply Forall_app; split).
      + apply Forall_silent. intros e [<-|[]]. exact I.
      + eapply IHm; eauto.
      + apply Forall_forall. intros e He. apply in_map_iff in He as (els & <- & He).
        destruct (Forall2_In_r _ _ _ _ Fp He) as (k & Hk & G).
        destruct (masks_in _ _ _ (br_masks _ _ _ (lr_base _ _ _ _ _ L)) Hk) as (m & Hm & Hr).
        exists src, frame, (layer_levels frame (src :: parents) ++ outside), (layer_levels frame [src] ++ shades), m, k. repeat split; auto; try apply Hr.
        eapply stands_sits; eauto. now left.
      + eapply IHc; eauto.
      + apply Forall_silent. intros e He. apply in_map_iff in He as (? & <- & _). exact I.
      + apply Forall_silent. intros e He. destruct (ly_mask_layer ly); [|destruct He]. destruct He as [<-|[<-|[]]]; exact I.
      + apply Forall_silent. intros e [<-|[]]. exact I.
    - constructor.
    - intros set ly outer alpha frame mode k m es Em Hm _ IH s i outside shades -> Hi Pf St Di. repeat (apply Forall_app; split).
      + apply Forall_silent. intros e [<-|[]]. exact I.
      + apply (IH s k outside shades); auto. intros Ac.
        destruct (scope_source _ _ _ _ _ _ Im Hi) as (src & Hs & L). destruct (scope_source _ _ _ _ _ _ Im Hm) as (msrc & Hms & Lm).
        destruct (proj1 (lr_matte _ _ _ _ _ L _ _) Em) as (mm & Ht & _ & Mf). eapply performs_matte; eauto. now apply (active_window _ _ _ _ _ Lm).
      + apply Forall_silent. intros e [<-|[]]. exact I.
    - intros set ly outer alpha frame mode k _ _ s i outside shades -> Hi Sc St Di. apply Forall_silent. intros e [<-|[<-|[]]]; exact I.
    - constructor.
    - intros shs tf alpha frame inner p Hp s i ly src parents outside shades Hi Hs L Hc _ Fa Pf St Di.
      destruct (content_items _ _ _ _ _ L Hc) as [Nh R].
      eapply picture_painted; eauto. exists s, outside, shades, i, parents. auto.
    - constructor.
    - intros name remap ls tf alpha frame inner es Hf _ IH s i ly src parents outside shades Hi Hs L Hc -> Fa Pf St Di.
      assert (Nh : ~ src_hidden src) by (intros Hh; rewrite (lr_hidden _ _ _ _ _ L Hh) in Hc; discriminate).
      pose proof (lr_content _ _ _ _ _ L Nh) as C. rewrite Hc in C.
      destruct src as [vl nm w h st tm|vl x y z|vl x|vl|vl shs] eqn:Es; cbn in C; try discriminate;
        try (now destruct C as (out & ? & _)).
      destruct C as (r & [= <- _] & _). rewrite <- Es in *.
      apply (IH (Some name) (layer_levels frame (src :: parents) ++ outside) (layer_levels frame [src] ++ shades)).
      + unfold scope_layers. now rewrite Hf.
      + apply Forall_forall. intros p Hp. unfold shown in Hp. apply filter_In in Hp as [Hp Hm]. apply in_rev in Hp.
        apply in_map_iff in Hp as (l & <- & Hl). split; [exact Hl|]. now apply negb_true_iff in Hm.
      + rewrite (inside_time _ _ _ _ _ L). eapply scene_precomp; eauto.
      + exact St.
      + exact Di.
    - constructor.
    - intros set i ly l tf alpha frame es es' _ IHl _ IHls s outside shades -> F Sc St Di. inversion F as [|? ? [F1 F1'] F2]; subst. cbn [snd] in F1, F1'.
      apply Forall_app. split.
      + apply In_nth_error in F1 as (k & Hk). apply (IHl s k outside shades); auto. intros Ac.
        destruct (scope_source _ _ _ _ _ _ Im Hk) as (src & Hs & L). eapply performs_itself; eauto.
        * intros M. apply (lr_is_mask _ _ _ _ _ L) in M. congruence.
        * now apply (active_window _ _ _ _ _ L).
      + eapply IHls; eauto.
  Qed.
  End Sound.

  (** ** Nothing is missing *)
  Definition numbered (set : list layer) (l : list (nat * layer)) : Prop :=
    forall ly, In ly set -> ly_is_mask ly = false -> exists n, In (n, ly) l.
  Lemma shown_numbered set l : (forall ly, In ly set -> exists n, In (n, ly) l) -> numbered set (shown l).
  Proof.
    intros H ly Hin Hm. destruct (H ly Hin) as (n & Hn). exists n. unfold shown. apply filter_In. cbn [snd]. rewrite Hm.
    split; [now apply in_rev in Hn|reflexivity].
  Qed.
  Lemma frame_layers_in set l tf alpha frame es n ly : frame_layers E c set l tf alpha frame es -> In (n, ly) l ->
    exists es', frame_layer E c set ly n tf alpha frame es' /\ incl es' es.
  Proof.
    induction 1 as [|set i ly' l tf alpha frame es es' H _ IH]; [intros []|]. intros [[= -> ->]|Hin].
    - exists es. split; [exact H|]. apply incl_appl, incl_refl.
    - destruct (IH Hin) as (es2 & H1 & H2). exists es2. split; [exact H1|]. now apply incl_appr.
  Qed.
  Lemma layer_of s i l : nth_error (source_layers a s) i = Some l ->
    exists ly, nth_error (scope_layers c s) i = Some ly /\ layer_reads E (source_layers a s) i l ly.
  Proof.
    intros Hs. destruct (conv_animation_reads E a c Im s) as [Len R].
    destruct (nth_error (scope_layers c s) i) as [ly|] eqn:K.
    - exists ly. split; [reflexivity|]. now apply R.
    - apply nth_error_None in K. assert (i < List.length (source_layers a s))%nat by (apply nth_error_Some; congruence). lia.
  Qed.
  Variable es0 : list event.
  Variable lys0 : list (nat * layer).
  Hypothesis Fr : frame_layers E c (co_layers c) lys0 view alpha0 now es0.
  Hypothesis Nu : numbered (co_layers c) lys0.
  Hypothesis Vw : stands E view [] view.
  Definition list_performs (s : option string) (t : f64) (outside shades : list level) : Prop := source_layers a s = [] \/
    exists lys tf al es, frame_layers E c (scope_layers c s) lys tf al t es /\ numbered (scope_layers c s) lys /\ incl es es0 /\
      stands E view outside tf /\ dims E alpha0 shades al.
  Definition layer_performs (s : option string) (t : f64) (outside shades : list level) (i : nat) : Prop :=
    exists ly n tf al es, nth_error (scope_layers c s) i = Some ly /\ active ly t /\ frame_layer E c (scope_layers c s) ly n tf al t es /\
      incl es es0 /\ stands E view outside tf /\ dims E alpha0 shades al.
  (** what a layer that is shown paints *)
  Lemma performance s t outside shades i l parents : layer_performs s t outside shades i -> nth_error (source_layers a s) i = Some l ->
    family (source_layers a s) l parents ->
    exists ly tf outer al al' paths es' es'', nth_error (scope_layers c s) i = Some ly /\ layer_reads E (source_layers a s) i l ly /\
      frame_matte E c (scope_layers c s) ly outer al t es' /\ incl es' es0 /\ stands E view outside outer /\ dims E alpha0 shades al /\
      Forall2 (fun m p => geometry_eval E (mk_geometry m) t = Ok p) (ly_masks ly) paths /\
      incl (map (fun p => EvPushClip tf (SkPath p)) paths) es0 /\
      frame_content E c (ly_content ly) tf al' t (time_inside l t) es'' /\ incl es'' es0 /\
      stands E view (layer_levels t (l :: parents) ++ outside) tf /\ dims E alpha0 (layer_levels t [l] ++ shades) al'.
  Proof.
    intros (ly & n & outer & al & es & Hi & Ac & Fl & In' & St & Di) Hs Fa.
    destruct (layer_of s i l Hs) as (ly' & Hi' & L). assert (ly' = ly) as -> by congruence.
    inversion Fl as [? ? ? ? ? ? Na|? ? ? ? ? ? tf matte paths inner _ Pl Fm Fp Fc]; subst; [contradiction|].
    exists ly, tf, outer, al, (dimmed E ly al t), paths, matte, inner. split; [exact Hi|]. split; [exact L|]. split; [exact Fm|].
    split. { intros e He. apply In', in_or_app. right. apply in_or_app. now left. }
    split; [exact St|]. split; [exact Di|]. split; [exact Fp|].
    split. { intros e He. apply In', in_or_app. right. apply in_or_app. right. apply in_or_app. now left. }
    rewrite <- (inside_time _ _ _ _ _ L). split; [exact Fc|].
    split. { intros e He. apply In', in_or_app. right. apply in_or_app. right. apply in_or_app. right. apply in_or_app. now left. }
    split; [eapply stands_layer; eauto|]. eapply dims_layer; eauto.
  Qed.
  Scheme scene_mind := Induction for scene Sort Prop with performs_mind := Induction for performs Sort Prop.
  Combined Scheme show_mind from scene_mind, performs_mind.
  Hypothesis Pe : parents_end a.
  Lemma show_performs :
    (forall s t outside shades, scene a now s t outside shades -> list_performs s t outside shades) /\
    (forall s t outside shades i, performs a now s t outside shades i -> layer_performs s t outside shades i).
  Proof.
    apply (show_mind a now (fun s t outside shades _ => list_performs s t outside shades) (fun s t outside shades i _ => layer_performs s t outside shades i)).
    - right. exists lys0, view, alpha0, es0. split; [exact Fr|]. split; [exact Nu|]. split; [apply incl_refl|]. split; [exact Vw|apply dims_caller].
    - intros s t outside shades i l parents vl name w h st tm _ IH Hs Fa Nh El.
      destruct (performance _ _ _ _ _ _ _ IH Hs Fa) as (ly & tf & outer & al & al' & paths & es' & es'' & Hi & L & _ & _ & _ & _ & _ & _ & Fc & In' & St' & Di').
      pose proof (lr_content _ _ _ _ _ L Nh) as C. rewrite El in C. cbn in C. destruct C as (r & Cr & _). rewrite Cr in Fc.
      inversion Fc as [| |? ? ? ? ? ? Nf|? ? ls ? ? ? ? ? Hf Fi]; subst.
      + left. destruct (conv_animation_reads E a c Im (Some name)) as [Len _]. unfold scope_layers in Len. rewrite Nf in Len.
        destruct (source_layers a (Some name)); [reflexivity|discriminate Len].
      + right. exists (shown (map (fun ly => (0%nat, ly)) ls)), tf, al', es''.
        assert (Sc : scope_layers c (Some name) = ls) by (unfold scope_layers; now rewrite Hf). rewrite Sc.
        split; [exact Fi|]. split; [|split; [exact In'|split; [exact St'|exact Di']]].
        apply shown_numbered. intros ly' Hl. exists 0%nat. now apply in_map.
    - intros s t outside shades i l _ IH Hs Nm Wi. destruct (layer_of s i l Hs) as (ly & Hi & L).
      destruct IH as [N|(lys & tf & al & es & F1 & F2 & F3 & F4 & F5)]; [rewrite N in Hs; destruct i; discriminate Hs|].
      assert (Mk : ly_is_mask ly = false).
      { destruct (ly_is_mask ly) eqn:K; [|reflexivity]. exfalso. apply Nm. now apply (lr_is_mask _ _ _ _ _ L). }
      destruct (F2 ly (nth_error_In _ _ Hi) Mk) as (n & Hn).
      destruct (frame_layers_in _ _ _ _ _ _ _ _ F1 Hn) as (es1 & Fl & I1).
      exists ly, n, tf, al, es1. split; [exact Hi|]. split; [now apply (active_window _ _ _ _ _ L)|]. split; [exact Fl|].
      split; [|split; assumption]. intros e He. now apply F3, I1.
    - intros s t outside shades i l mode k m _ IH Hs Ht Mf Hm Wi.
      destruct (Pe s l (nth_error_In _ _ Hs)) as (parents & Fa).
      destruct (performance _ _ _ _ _ _ _ IH Hs Fa) as (ly & tf & outer & al & al' & paths & es' & es'' & Hi & L & Fm & In' & St & Di & _).
      destruct (layer_of s k m Hm) as (lm & Hlm & Lm).
      assert (Em : ly_mask_layer ly = Some (matte_blend mode, k)) by (apply (lr_matte _ _ _ _ _ L); eauto).
      inversion Fm as [? ? ? ? ? N|? ? ? ? ? mode' k' m' es Em' Hm' Fl|? ? ? ? ? mode' k' Em' Hm']; subst; [congruence| |].
      2:{ rewrite Em in Em'. injection Em' as _ <-. congruence. }
      rewrite Em in Em'. injection Em' as _ <-. assert (m' = lm) as -> by congruence.
      exists lm, 0%nat, outer, al, es. split; [exact Hlm|]. split; [now apply (active_window _ _ _ _ _ Lm)|]. split; [exact Fl|].
      split; [|split; assumption]. intros e He. apply In', in_or_app. right. apply in_or_app. now left.
  Qed.
  Lemma item_performs l t levels shades groups z sgroups y : layer_shown a now l t levels shades -> ~ src_hidden l ->
    (forall x, In x (items l) -> untrimmed x) -> inks (items l) groups z sgroups y -> outline_item z -> yields z ->
    exists p, In (EvDraw p) es0 /\ paints_item E view alpha0 t levels shades groups z sgroups y p.
  Proof.
    intros (s & outside & shades' & i & parents & Pf & Hs & Fa & -> & ->) Nh Un Ik Oz Yz.
    apply (proj2 show_performs) in Pf.
    destruct (performance _ _ _ _ _ _ _ Pf Hs Fa) as (ly & tf & outer & al & al' & paths & es' & es'' & Hi & L & _ & _ & _ & _ & _ & _ & Fc & In' & St' & Di').
    destruct l as [| |vl shs| |]; cbn [items] in Ik; try (exfalso; exact (inks_nil _ _ _ _ Ik)).
    pose proof (lr_content _ _ _ _ _ L Nh) as C. cbn in C. destruct C as (out & Co & R). rewrite Co in Fc.
    inversion Fc as [|? ? ? ? ? pc Hp| |]; subst.
    pose proof (picture_good (AlShape vl shs) t _ _ _ _ _ _ R St' Di' Hp) as G.
    destruct (gp_inked _ _ _ _ _ _ _ _ _ G Un _ _ _ _ Ik Oz Yz) as (d & o & D1 & (dr & al2 & B & D2 & Es) & O1 & (gm & pre & post & m' & K1 & K2 & K3 & K4)).
    exists (mkPaint (sy_stroke (fst d)) (snd o) (style_brush E (fst d)) (fst o)). split.
    - apply In', in_map, paint_of_pic. now exists d, o.
    - exists gm, (fdiv (fmul al2 (eval E (dr_opacity dr) t)) f100), pre, post. split; [exact K1|]. cbn [pt_path pt_transform].
      split; [exact K2|]. split; [eapply stands_sits; eauto|]. split; [now apply dims_shines|]. eapply style_ink; [exact B|]. now rewrite Es.
  Qed.
  Lemma masks_out l k m : masks_read l k -> In m l -> mask_imports m -> exists x, In x k /\ mask_reads m x.
  Proof.
    induction 1 as [|m' l out N _ IH|m' y l out _ R _ IH]; [intros []| |]; intros [->|Hin] M.
    - contradiction.
    - now apply IH.
    - exists y. split; [now left|exact R].
    - destruct (IH Hin M) as (x & H1 & H2). exists x. split; [now right|exact H2].
  Qed.
  Lemma mask_performs l t levels shades m : layer_shown a now l t levels shades -> In m (src_masks l) -> mask_imports m ->
    exists k els tf, mask_reads m k /\ geometry_eval E (mk_geometry k) t = Ok els /\ In (EvPushClip tf (SkPath els)) es0 /\
      sits_through E (1 / 100) view levels tf.
  Proof.
    intros (s & outside & shades' & i & parents & Pf & Hs & Fa & -> & ->) Hm Mi.
    apply (proj2 show_performs) in Pf.
    destruct (performance _ _ _ _ _ _ _ Pf Hs Fa) as (ly & tf & outer & al & al' & paths & es' & es'' & Hi & L & _ & _ & _ & _ & Fp & In' & _ & _ & St' & Di').
    destruct (masks_out _ _ _ (br_masks _ _ _ (lr_base _ _ _ _ _ L)) Hm Mi) as (k & Hk & Hr).
    assert (P : exists els, In els paths /\ geometry_eval E (mk_geometry k) t = Ok els).
    { clear - Fp Hk. induction Fp as [|x y l l' H _ IH]; [destruct Hk|]. destruct Hk as [->|Hk]; [exists y; split; [now left|exact H]|].
      destruct (IH Hk) as (e & H1 & H2). exists e. split; [now right|exact H2]. }
    destruct P as (els & Pe' & Pg). exists k, els, tf. split; [exact Hr|]. split; [exact Pg|]. split.
    - apply In'. now apply (in_map (fun p => EvPushClip tf (SkPath p))).
    - eapply stands_sits; eauto. now left.
  Qed.
End Frames.

(** * C82 *)
Lemma enumerated_shown c : Forall (fun p : nat * layer => In (snd p) (co_layers c) /\ ly_is_mask (snd p) = false)
  (shown (combine (seq 0 (List.length (co_layers c))) (co_layers c))).
Proof.
  apply Forall_forall. intros [i x] H. unfold shown in H. apply filter_In in H. destruct H as [H Hm].
  apply in_rev in H. cbn [snd] in *. split; [now apply in_combine_r in H|now apply negb_true_iff in Hm].
Qed.
Lemma enumerated_numbered c : numbered (co_layers c) (shown (combine (seq 0 (List.length (co_layers c))) (co_layers c))).
Proof.
  apply shown_numbered. intros ly Hin. apply In_nth_error in Hin as (i & Hi). exists i.
  apply (nth_error_In _ i).
  assert (G : forall (ls : list layer) i k, nth_error ls i = Some ly -> nth_error (combine (seq k (List.length ls)) ls) i = Some ((k + i)%nat, ly)).
  { clear. induction ls as [|x ls IH]; intros [|i] k Hi; try discriminate; cbn in *.
    - injection Hi as ->. now rewrite Nat.add_0_r.
    - rewrite (IH i (S k) Hi). f_equal. f_equal. lia. }
  rewrite (G _ _ 0%nat Hi). reflexivity.
Qed.
Theorem C82_painted : forall E a c frame view alpha r es p, accurate E -> kurbo_paths E -> conv_animation E a = Ok c ->
  stars_fit_in a -> tidy_in a -> parents_end a -> plain_view view -> used r ->
  append_draws E c frame view alpha r es -> In (EvDraw p) es -> painted E a frame view alpha p.
Proof.
  intros E a c frame view alpha r es p A K H F T Pe V U D Hin.
  apply (C67_reference E c frame view alpha r es (document_sound E a c K H F) (document_clash E a c H T) U) in D.
  destruct D as (body & D & ->). apply in_app_or in Hin as [[Hin|[]]|Hin]; [discriminate|].
  apply in_app_or in Hin as [Hin|[Hin|[]]]; [|discriminate].
  pose proof (proj2 (proj2 (proj2 (frame_placed E a c view alpha frame A H Pe))) _ _ _ _ _ _ D None [] [] eq_refl (enumerated_shown c)
    (scene_main a frame) (stands_view E view V) (dims_caller E alpha)) as P.
  rewrite Forall_forall in P. exact (P _ Hin).
Qed.
Theorem C82_clipped : forall E a c frame view alpha r es m els, accurate E -> kurbo_paths E -> conv_animation E a = Ok c ->
  stars_fit_in a -> tidy_in a -> parents_end a -> plain_view view -> used r ->
  append_draws E c frame view alpha r es -> In (EvPushClip m (SkPath els)) es -> clipped E a frame view m els.
Proof.
  intros E a c frame view alpha r es m els A K H F T Pe V U D Hin.
  apply (C67_reference E c frame view alpha r es (document_sound E a c K H F) (document_clash E a c H T) U) in D.
  destruct D as (body & D & ->). apply in_app_or in Hin as [[Hin|[]]|Hin]; [discriminate|].
  apply in_app_or in Hin as [Hin|[Hin|[]]]; [|discriminate].
  pose proof (proj2 (proj2 (proj2 (frame_placed E a c view alpha frame A H Pe))) _ _ _ _ _ _ D None [] [] eq_refl (enumerated_shown c)
    (scene_main a frame) (stands_view E view V) (dims_caller E alpha)) as P.
  rewrite Forall_forall in P. exact (P _ Hin).
Qed.
(** And nothing is missing: in a layer that is shown and has no trims, every
    outline with a style is painted in that style; and every mask is pushed. *)
Theorem C82_complete : forall E a c frame view alpha r es l t levels shades groups z sgroups y,
  accurate E -> kurbo_paths E -> conv_animation E a = Ok c ->
  stars_fit_in a -> tidy_in a -> parents_end a -> plain_view view -> used r ->
  append_draws E c frame view alpha r es ->
  layer_shown a frame l t levels shades -> ~ src_hidden l -> (forall x, In x (items l) -> untrimmed x) ->
  inks (items l) groups z sgroups y -> outline_item z -> yields z ->
  exists p, In (EvDraw p) es /\ paints_item E view alpha t levels shades groups z sgroups y p.
Proof.
  intros E a c frame view alpha r es l t levels shades groups z sgroups y A K H F T Pe V U D Sh Nh Un Ik Oz Yz.
  apply (C67_reference E c frame view alpha r es (document_sound E a c K H F) (document_clash E a c H T) U) in D.
  destruct D as (body & D & ->).
  destruct (item_performs E a c view alpha frame A H body _ D (enumerated_numbered c) (stands_view E view V) Pe l t levels shades groups z sgroups y Sh Nh Un Ik Oz Yz) as (p & Hp & P).
  exists p. split; [|exact P]. apply in_or_app. right. apply in_or_app. now left.
Qed.
Theorem C82_masks : forall E a c frame view alpha r es l t levels shades m,
  accurate E -> kurbo_paths E -> conv_animation E a = Ok c ->
  stars_fit_in a -> tidy_in a -> parents_end a -> plain_view view -> used r ->
  append_draws E c frame view alpha r es ->
  layer_shown a frame l t levels shades -> In m (src_masks l) -> mask_imports m ->
  exists k els tf, mask_reads m k /\ geometry_eval E (mk_geometry k) t = Ok els /\ In (EvPushClip tf (SkPath els)) es /\
    sits_through E (1 / 100) view levels tf.
Proof.
  intros E a c frame view alpha r es l t levels shades m A K H F T Pe V U D Sh Hm Mi.
  apply (C67_reference E c frame view alpha r es (document_sound E a c K H F) (document_clash E a c H T) U) in D.
  destruct D as (body & D & ->).
  destruct (mask_performs E a c view alpha frame A H body _ D (enumerated_numbered c) (stands_view E view V) Pe l t levels shades m Sh Hm Mi) as (k & els & tf & P1 & P2 & P3 & P4).
  exists k, els, tf. split; [exact P1|]. split; [exact P2|]. split; [|exact P4]. apply in_or_app. right. apply in_or_app. now left.
Qed.
From Verif Require Import Examples.
Open Scope list_scope.
Open Scope R_scope.
(** A rectangle in a group, in a layer hanging on another, in a precomposition
    shown twice as big. *)
Definition knob : any_shape :=
  group_of [rect_at 3 4; fill_in no_ge; AsTransform (mkTransformShape no_ge (tr_place 5 6 0 0 100 0))].
Definition hand : any_layer :=
  AlShape (visual (base "hand" (Some 1%nat) (Some 2%nat) None) (tr_place 100 0 0 0 100 90) None None None) [knob].
Definition trunk : any_layer := AlNull (visual (base "trunk" (Some 2%nat) None None) (tr_place 10 20 0 0 50 0) None None None).
Definition stage : any_layer :=
  AlPrecomp (visual (base "stage" (Some 1%nat) None None) (tr_place 10 0 0 0 200 0) None None None) "doll" (f_of_Z 100) (f_of_Z 100) f0 None.
Definition theatre : animation := doc [AaPrecomp (mkAsset "doll" no_vo) [hand; trunk] None None] [stage].
Definition act : f64 := time_inside stage f0.
Definition theatre_levels : list level := layer_levels act [hand; trunk] ++ layer_levels f0 [stage] ++ [].
Definition theatre_shades : list level := layer_levels act [hand] ++ layer_levels f0 [stage] ++ [].
Definition theatre_postures : list posture :=
  [mkPosture (zp 5 6) (zp 0 0) (mkVec2 (f_of_Z 100) (f_of_Z 100)) (f_of_Z 0) f0 f0;
   mkPosture (zp 100 0) (zp 0 0) (mkVec2 (f_of_Z 100) (f_of_Z 100)) (f_of_Z 90) f0 f0;
   mkPosture (zp 10 20) (zp 0 0) (mkVec2 (f_of_Z 50) (f_of_Z 50)) (f_of_Z 0) f0 f0;
   mkPosture (zp 10 0) (zp 0 0) (mkVec2 (f_of_Z 200) (f_of_Z 200)) (f_of_Z 0) f0 f0].
Lemma theatre_scopes s : source_layers theatre s = [stage] \/ source_layers theatre s = [hand; trunk] \/ source_layers theatre s = [].
Proof.
  destruct s as [n|]; unfold source_layers; cbn [assets_of theatre doc ani_assets asset_layers ani_layers ass_id]; [|now left].
  destruct (String.eqb "doll" n); auto.
Qed.
Lemma hand_family : family [hand; trunk] hand [trunk].
Proof.
  apply (fam_child _ hand 2%nat 1%nat trunk); [reflexivity| |reflexivity|].
  - split; [now exists trunk|]. intros j m Hj Hm. do 2 (destruct j as [|j]; [lia|]). destruct j; discriminate Hm.
  - apply fam_top. intros p Hp. discriminate Hp.
Qed.
Lemma theatre_ends : parents_end theatre.
Proof.
  intros s l. destruct (theatre_scopes s) as [->|[->| ->]].
  - intros [<-|[]]. exists []. apply fam_top. intros p Hp. discriminate Hp.
  - intros [<-|[<-|[]]]; [exists [trunk]; apply hand_family|]. exists []. apply fam_top. intros p Hp. discriminate Hp.
  - intros [].
Qed.
Lemma upright_lies x y ax ay k r v : lies (mkPosture (mkPoint x y) (mkPoint ax ay) k r f0 f0) v =
  vplus (B2R x, B2R y) (turn (B2R r) (stretch (real_vec2 k) (vminus v (B2R ax, B2R ay)))).
Proof. unfold lies, lands, real_point. cbn [po_position po_anchor po_scale po_rotation po_skew po_axis px py]. now rewrite f0_R, slant_0. Qed.
Lemma zoom_straight p q s r : (0 <= s <= 2 ^ 53)%Z -> zoom (mkPosture p q (mkVec2 (f_of_Z s) (f_of_Z s)) r f0 f0) = Rmax 1 (IZR s / 100).
Proof.
  intros H. unfold zoom. cbn [po_scale po_skew vx vy]. rewrite f0_R, z_val by lia. replace (0 * PI / 180) with 0 by lra.
  rewrite tan_0, Rabs_R0. rewrite (Rmax_left (Rabs (IZR s)) (Rabs (IZR s))) by lra. rewrite (Rabs_pos_eq (IZR s)) by (apply IZR_le; lia). ring.
Qed.
Example C82_applies :
  accurate E_accurate /\ kurbo_paths E_accurate /\ stars_fit_in theatre /\ tidy_in theatre /\ parents_end theatre /\ plain_view affine_identity /\
  (exists c es p, conv_animation E_accurate theatre = Ok c /\
     append_draws E_accurate c f0 affine_identity f1 renderer_new es /\ In (EvDraw p) es) /\
  layer_shown theatre f0 hand act theatre_levels theatre_shades /\ ~ src_hidden hand /\
  (forall x, In x (items hand) -> untrimmed x) /\
  inks (items hand) [Some (tr_place 5 6 0 0 100 0)] (rect_at 3 4) [Some (tr_place 5 6 0 0 100 0)] (fill_in no_ge) /\ yields (rect_at 3 4) /\
  Forall2 (level_posture E_accurate) (group_levels act [Some (tr_place 5 6 0 0 100 0)] ++ theatre_levels) theatre_postures /\
  Forall plain_posture theatre_postures /\ 4 * 4 * total_zoom theatre_postures <= 2000 /\
  through theatre_postures (1, 2) = (122, 46).
Proof.
  split; [apply E_accurate_ok|]. split; [split; reflexivity|]. split; [|split; [|split; [apply theatre_ends|split; [|split; [|split; [|split; [|split; [|split; [|split; [|split; [|split; [|split]]]]]]]]]]]].
  - intros s src x. destruct (theatre_scopes s) as [->|[->| ->]]; [intros [<-|[]] []| |intros []].
    intros [<-|[<-|[]]]; [|intros []]. intros [<-|[]]. apply sf_group. intros y [<-|[<-|[<-|[]]]]; now constructor.
  - intros s src. destruct (theatre_scopes s) as [->|[->| ->]]; [intros [<-|[]]; exists Free; constructor| |intros []].
    intros [<-|[<-|[]]]; exists Free; [|constructor]. cbn [shapes_of hand].
    eapply (td_group _ _ _ _ _ Free); [|constructor]. apply td_geometry; [exact I|discriminate|]. apply td_style; [exact I|].
    apply td_other; [exact I|]. constructor.
  - unfold plain_view, finite_map, affine_identity. cbn [aa ab ac ad ae af]. rewrite f0_R, f1_R, Rabs_R0, Rabs_R1.
    repeat split; try lra; reflexivity.
  - assert (T : match conv_animation E_accurate theatre with
      | Ok c => let r := append E_accurate 10 c f0 affine_identity f1 renderer_new in
          match r_out r with Ok _ => existsb (fun e => match e with EvDraw _ => true | _ => false end) (events r) | _ => false end
      | _ => false end = true) by (lazy; reflexivity).
    destruct (conv_animation _ _) as [c| |]; try discriminate. cbv zeta in T.
    destruct (r_out _) as [[]| |] eqn:R; try discriminate. apply existsb_exists in T as (e & Hin & T). destruct e as [| | |p| |]; try discriminate.
    exists c, (events (append E_accurate 10 c f0 affine_identity f1 renderer_new)), p. split; [reflexivity|]. split; [|exact Hin].
    exists 10%nat. split; [exact R|reflexivity].
  - assert (W : in_window stage f0 /\ in_window hand act) by (repeat split; vm_compute; reflexivity). destruct W as [W1 W2].
    exists (Some "doll"%string), (layer_levels f0 [stage] ++ []), (layer_levels f0 [stage] ++ []), 0%nat, [trunk].
    split; [|split; [reflexivity|split; [apply hand_family|split; reflexivity]]].
    apply (performs_itself _ _ _ _ _ _ _ hand); [|reflexivity|intros (M1 & M2); discriminate M1|exact W2].
    change act with (time_inside stage f0). eapply (scene_precomp _ _ None f0 [] [] 0%nat stage []); [|reflexivity| |discriminate|reflexivity].
    + apply (performs_itself _ _ _ _ _ _ _ stage); [constructor|reflexivity|intros (M1 & M2); discriminate M1|exact W1].
    + apply fam_top. intros p Hp. discriminate Hp.
  - discriminate.
  - intros x [<-|[]]. apply un_group. intros y [<-|[<-|[<-|[]]]]; now apply un_leaf.
  - apply (inks_group [knob] no_ge None [rect_at 3 4; fill_in no_ge; AsTransform (mkTransformShape no_ge (tr_place 5 6 0 0 100 0))] None
      (Some (mkTransformShape no_ge (tr_place 5 6 0 0 100 0))) [] (rect_at 3 4) [] (fill_in no_ge)).
    + now left.
    + exists [rect_at 3 4; fill_in no_ge], []. split; [reflexivity|]. intros y [].
    + apply (inks_here [rect_at 3 4]); [exact I|]. apply item_here. now left.
  - constructor.
  - unfold theatre_postures. repeat apply Forall2_cons; [| | | |apply Forall2_nil].
    all: unfold level_posture; cbn [fst snd]; unfold posture_at;
      match goal with |- exists p a s r k x, _ /\ _ /\ _ /\ _ /\ _ /\ _ /\ mkPosture ?p' ?a' ?s' ?r' ?k' ?x' = _ =>
      exists (fun _ => p'), (fun _ => a'), (fun _ => s'), (fun _ => r'), (fun _ => k'), (fun _ => x') end;
      (split; [intros ?; reflexivity|]); (split; [intros ?; reflexivity|]); (split; [intros ?; reflexivity|]);
      (split; [eexists; split; [reflexivity|]; intros ?; reflexivity|]); (split; [intros ?; reflexivity|]); (split; [intros ?; reflexivity|]); reflexivity.
  - unfold theatre_postures. repeat apply Forall_cons; [| | | |apply Forall_nil].
    all: unfold plain_posture, bounded_by, real_point, real_vec2, zp; cbn [po_position po_anchor po_scale po_rotation po_skew po_axis px py vx vy fst snd];
      rewrite ?f0_R, !z_val by lia; repeat split; try (apply z_fin; lia); try reflexivity; apply Rabs_le; lra.
  - unfold theatre_postures, zp. cbn [total_zoom]. rewrite !zoom_straight by lia.
    replace (100 / 100) with 1 by lra. rewrite (Rmax_left 1 1), (Rmax_left 1 (50 / 100)), (Rmax_right 1 (200 / 100)) by lra. lra.
  - unfold theatre_postures, zp. cbn [through].
    assert (S : forall x y k r v w, (Z.abs x <= 2 ^ 53)%Z -> (Z.abs y <= 2 ^ 53)%Z -> (Z.abs k <= 2 ^ 53)%Z -> (Z.abs r <= 2 ^ 53)%Z ->
      vplus (IZR x, IZR y) (turn (IZR r) (stretch (IZR k, IZR k) v)) = w ->
      lies (mkPosture (mkPoint (f_of_Z x) (f_of_Z y)) (mkPoint (f_of_Z 0) (f_of_Z 0)) (mkVec2 (f_of_Z k) (f_of_Z k)) (f_of_Z r) f0 f0) v = w).
    { intros x y k r v w Hx Hy Hk Hr Hw. rewrite upright_lies. unfold real_vec2. cbn [vx vy].
      rewrite !z_val by (assumption || lia). rewrite <- Hw. f_equal. f_equal. f_equal. destruct v. unfold vminus. cbn [fst snd]. f_equal; lra. }
    rewrite (S 5%Z 6%Z 100%Z 0%Z (1, 2) (6, 8)); try lia.
    2:{ unfold vplus, turn, stretch. cbn [fst snd]. replace (0 * PI / 180) with 0 by lra. rewrite cos_0, sin_0. f_equal; lra. }
    rewrite (S 100%Z 0%Z 100%Z 90%Z (6, 8) (92, 6)); try lia.
    2:{ unfold vplus, turn, stretch. cbn [fst snd]. replace (90 * PI / 180) with (PI / 2) by lra. rewrite cos_PI2, sin_PI2. f_equal; lra. }
    rewrite (S 10%Z 20%Z 50%Z 0%Z (92, 6) (56, 23)); try lia.
    2:{ unfold vplus, turn, stretch. cbn [fst snd]. replace (0 * PI / 180) with 0 by lra. rewrite cos_0, sin_0. f_equal; lra. }
    apply S; try lia. unfold vplus, turn, stretch. cbn [fst snd]. replace (0 * PI / 180) with 0 by lra. rewrite cos_0, sin_0. f_equal; lra.
Qed.
(** C80 without a bound on the number of parents, with slants and enlargements. *)
Theorem C80_deep : forall E a c s i src ly parents frame view, accurate E -> conv_animation E a = Ok c ->
  nth_error (source_layers a s) i = Some src -> layer_at c (s, i) = Some ly ->
  family (source_layers a s) src parents -> plain_view view ->
  sits_through E (1 / 100) view (layer_levels frame (src :: parents)) (compute_transform E (scope_layers c s) ly view frame).
Proof.
  intros E a c s i src ly parents frame view A H Hs Hl F V.
  destruct (family_ancestors E a c s frame H _ _ F i ly Hs Hl) as (ps & An & St).
  apply (stands_sits _ _ _ (compute_transform E (scope_layers c s) ly view frame)); [|now left].
  rewrite <- (app_nil_r (layer_levels frame (src :: parents))).
  eapply (stands_layer E a c s i src ly parents view [] view frame); eauto; [now apply stands_view|].
  exists ps. split; [now left|]. apply (C08_parent_chain _ _ _ _ _ _ An).
Qed.
(** A masked layer that is shown through a matte. *)
Definition peephole : s_mask := mkSMask None None None (Some (mkShapeProp None None None
  (SkStatic (mkBezier (Some true) [(f0, f0); (f1, f0); (f0, f1)] [(f0, f0); (f0, f0); (f0, f0)] [(f0, f0); (f0, f0); (f0, f0)])))) None None None.
Definition gobo : any_layer :=
  AlShape (visual (base "gobo" (Some 1%nat) None None) (tr_place 10 0 0 0 200 0) None (Some BITrue) None) [rect_at 3 4; fill_in no_ge].
Definition lit : any_layer :=
  AlShape (mkVisualLayer (base "lit" (Some 2%nat) None None) (Some MmAlpha) None (Some [peephole]) (tr_place 1 2 0 0 100 0) None None
    None None None None None None None None) [rect_at 5 6; fill_in no_ge].
Definition studio : animation := doc [] [gobo; lit].
Lemma studio_scopes s : source_layers studio s = [gobo; lit] \/ source_layers studio s = [].
Proof. destruct s as [n|]; [right|left]; reflexivity. Qed.
Example C82_matte_applies :
  stars_fit_in studio /\ tidy_in studio /\ parents_end studio /\
  (exists c es, conv_animation E_accurate studio = Ok c /\ append_draws E_accurate c f0 affine_identity f1 renderer_new es) /\
  (layer_shown studio f0 gobo f0 (layer_levels f0 [gobo] ++ []) (layer_levels f0 [gobo] ++ []) /\ matte_source gobo) /\
  layer_shown studio f0 lit f0 (layer_levels f0 [lit] ++ []) (layer_levels f0 [lit] ++ []) /\
  In peephole (src_masks lit) /\ mask_imports peephole.
Proof.
  assert (W : in_window gobo f0 /\ in_window lit f0) by (repeat split; vm_compute; reflexivity). destruct W as [W1 W2].
  assert (Pl : performs studio f0 None f0 [] [] 1%nat).
  { apply (performs_itself _ _ _ _ _ _ _ lit); [constructor|reflexivity|intros (M1 & M2); discriminate M1|exact W2]. }
  split; [|split; [|split; [|split; [|split; [split|split; [|split]]]]]].
  - intros s src x. destruct (studio_scopes s) as [->| ->]; [|intros []].
    intros [<-|[<-|[]]]; intros [<-|[<-|[]]]; now constructor.
  - intros s src. destruct (studio_scopes s) as [->| ->]; [|intros []].
    intros [<-|[<-|[]]]; exists Free; (apply td_geometry; [exact I|discriminate|]; apply td_style; [exact I|]; constructor).
  - intros s src. destruct (studio_scopes s) as [->| ->]; [|intros []].
    intros [<-|[<-|[]]]; exists []; apply fam_top; intros p Hp; discriminate Hp.
  - assert (T : match conv_animation E_accurate studio with
      | Ok c => match r_out (append E_accurate 10 c f0 affine_identity f1 renderer_new) with Ok _ => true | _ => false end
      | _ => false end = true) by (lazy; reflexivity).
    destruct (conv_animation _ _) as [c| |]; try discriminate. destruct (r_out _) as [[]| |] eqn:R; try discriminate.
    exists c, (events (append E_accurate 10 c f0 affine_identity f1 renderer_new)). split; [reflexivity|]. exists 10%nat. split; [exact R|reflexivity].
  - exists None, [], [], 0%nat, []. split; [|split; [reflexivity|split; [apply fam_top; intros p Hp; discriminate Hp|split; reflexivity]]].
    apply (performs_matte _ _ _ _ _ _ 1%nat lit MmAlpha 0%nat gobo); [exact Pl|reflexivity|reflexivity| |reflexivity|exact W1].
    split; [lia|]. split; [exists gobo; split; [reflexivity|split; [reflexivity|discriminate]]|]. intros j l Hj. lia.
  - split; [reflexivity|discriminate].
  - exists None, [], [], 1%nat, []. split; [exact Pl|]. split; [reflexivity|]. split; [apply fam_top; intros p Hp; discriminate Hp|split; reflexivity].
  - now left.
  - eexists. split; [reflexivity|]. exact I.
Qed.
