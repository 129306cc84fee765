(** C83: how far a path is from where its easing would put it. *)
From Coq Require Import Reals ZArith Bool List Lia Lra Arith.
From Flocq Require Import Core BinarySingleNaN.
From Verif Require Import F64 F64Facts Kurbo Value Animated ValueSpec.
From Verif Require Import Schema Import ImportSpec TimelineSpec EasingSpec MorphSpec.
From Verif Require Import ImportFacts PropGeometry PropStar PropImport2 PropEasing PropAlpha PropMorph Examples.
Import ListNotations.
Close Scope string_scope.
Open Scope list_scope.
Open Scope R_scope.

(** Element [n] of the outline ends at [q]. *)
Definition ends_at (els : list path_el) (n : nat) (q : point) : Prop :=
  match nth_error els n with Some (MoveTo p | LineTo p | CurveTo _ _ p) => p = q | _ => False end.
(** [x] misses the place [y] of the way from [a] to [b] by the distance that the share [|y - t|] of the way makes. *)
Definition misses (t y a b : R) (x : f64) : Prop := Rabs (Rabs (B2R x - (a + (b - a) * y)) - Rabs (y - t) * Rabs (b - a)) <= / 1000000.

Lemma way_misses t a b x y : on_the_way t a b x -> misses t y a b x.
Proof.
  intros [_ H]. unfold misses. rewrite <- Rabs_mult. apply Rle_trans with (2 := H). rewrite <- (Rabs_Ropp ((y - t) * (b - a))).
  apply Rle_trans with (1 := Rabs_triang_inv2 _ _). apply Req_le. f_equal. ring.
Qed.
Lemma way_nth y pts1 pts2 pts : all_part_way y pts1 pts2 pts -> forall n a b, nth_error pts1 n = Some a -> nth_error pts2 n = Some b ->
  exists q, nth_error pts n = Some q /\ part_way y a b q.
Proof.
  induction 1 as [b|a|a b p la lb lp W _ IH]; intros [|n] a' b' Ha Hb; try discriminate; cbn [nth_error] in *.
  - injection Ha as <-. injection Hb as <-. eauto.
  - now apply IH.
Qed.
Lemma way_length y pts1 pts2 pts : all_part_way y pts1 pts2 pts -> List.length pts = Nat.min (List.length pts1) (List.length pts2).
Proof. induction 1; cbn [List.length]; [reflexivity|now rewrite Nat.min_0_r|now rewrite IHall_part_way]. Qed.
Lemma spline_ends pts closed els n : spline_path pts closed els -> (3 * n + 2 < List.length pts)%nat -> ends_at els n (vertex pts n).
Proof.
  intros (body & Lb & Con & Hp) Hn. assert (Ln : (n < List.length pts / 3)%nat).
  { apply Nat.div_le_lower_bound with (q := S n); lia. }
  assert (Q : exists tl, els = MoveTo (vertex pts 0) :: body ++ tl).
  { destruct (closed && _)%bool; [destruct Hp as (e & _ & ->); eauto|exists []; now rewrite app_nil_r]. }
  destruct Q as (tl & ->). unfold ends_at. destruct n as [|n]; [reflexivity|]. cbn [nth_error]. rewrite nth_error_app1 by lia.
  specialize (Con n ltac:(lia)). rewrite (nth_error_nth' body ClosePath) by lia.
  destruct Con as [(_ & _ & ->)|(_ & ->)]; reflexivity.
Qed.

(** Every vertex of the outline misses the place at which any progress [y]
    would put it (say the easing's) by the share [|y - elapsed|] of its way: it
    follows the easing exactly where the curve is at the elapsed time or the vertex rests. *)
Theorem C83_exact : forall E p g ks i k l frame, imported_path E p g -> sp_k p = SkAnimated ks ->
  in_order (path_times ks) -> moderate_keyframes (path_times ks) -> nth_error ks i = Some k -> nth_error ks (S i) = Some l ->
  fin frame -> between (stamp k) (stamp l) frame -> ~ held (stamp k) ->
  (forall b, (start_of ks i = Some b \/ end_of ks i = Some b) -> ordinary_path b) ->
  exists b1 b2 els, start_of ks i = Some b1 /\ end_of ks i = Some b2 /\ geometry_eval E g frame = Ok els /\
  forall n v1 v2, nth_error (bz_v b1) n = Some v1 -> nth_error (bz_v b2) n = Some v2 ->
  exists q, ends_at els n q /\ forall y, let t := elapsed (stamp k) (stamp l) frame in
    misses t y (B2R (fst v1)) (B2R (fst v2)) (px q) /\ misses t y (B2R (snd v1)) (B2R (snd v2)) (py q).
Proof.
  intros E p g ks i k l frame I K O M Hk Hl Ff Bt Nh Ob. destruct (C83_linear E p g ks i k l frame I K O M Hk Hl Ff Bt Nh Ob) as (els & Ev & Mo).
  destruct Mo as (b1 & b2 & pts1 & pts2 & pts & cl & S1 & S2 & [L1 P1] & [L2 P2] & W & _ & Sp).
  exists b1, b2, els. split; [exact S1|]. split; [exact S2|]. split; [exact Ev|]. intros n v1 v2 H1 H2.
  destruct (P1 n v1 H1) as (Q1 & _). destruct (P2 n v2 H2) as (Q2 & _). destruct (way_nth _ _ _ _ W _ _ _ Q1 Q2) as (q & Hq & [Wx Wy]).
  assert (N1 : (n < List.length (bz_v b1))%nat) by (apply nth_error_Some; congruence). assert (N2 : (n < List.length (bz_v b2))%nat) by (apply nth_error_Some; congruence).
  exists q. split.
  - rewrite <- (nth_error_nth _ _ pt_dflt Hq). apply (spline_ends pts cl); [exact Sp|]. rewrite (way_length _ _ _ _ W), L1, L2. lia.
  - intros y t. split; now apply way_misses.
Qed.

(** * C81: the opacity of every stop of a gradient *)
(** The line from opacity stop [p] to opacity stop [q], flat in its first
    quarter below a tenth and in its last quarter above nine tenths. *)
Definition ramp (p q : f64 * f64) (o : f64) : R :=
  let part := (B2R o - B2R (fst p)) / (B2R (fst q) - B2R (fst p)) in
  if Rle_dec (B2R o) (1 / 10) then if Rle_dec part (1 / 4) then B2R (snd p) else blended p q o
  else if Rle_dec (9 / 10) (B2R o) then if Rle_dec (3 / 4) part then B2R (snd q) else blended p q o
  else blended p q o.
(** Not exactly where the line becomes flat. *)
Definition off_corners (p q : f64 * f64) (o : f64) : Prop :=
  let part := (B2R o - B2R (fst p)) / (B2R (fst q) - B2R (fst p)) in
  / 1000000000000 <= Rabs (B2R o - 1 / 10) /\ / 1000000000000 <= Rabs (B2R o - 9 / 10) /\
  / 1000000000000 <= Rabs (part - 1 / 4) /\ / 1000000000000 <= Rabs (part - 3 / 4).
(** [a] is the least of [v] and the opacities of the inner opacity stops. *)
Definition least (ops : list (f64 * f64)) (v : R) (a : f32) : Prop :=
  fin a /\ B2R a <= v + 1 / 10000 /\ (forall r, inner ops r -> B2R a <= B2R (snd r) + 1 / 10000) /\
  (Rabs (B2R a - v) <= 1 / 10000 \/ exists r, inner ops r /\ Rabs (B2R a - B2R (snd r)) <= 1 / 10000).

Lemma away a b e : e <= Rabs (a - b) -> a <= b - e \/ b + e <= a.
Proof. unfold Rabs. destruct (Rcase_abs (a - b)); intros; [left|right]; lra. Qed.
Lemma segment_ramp E p q x : solves E -> moderate (fst p) -> moderate (fst q) -> fin x -> B2R (fst p) <= B2R x < B2R (fst q) ->
  unit_number (snd p) -> unit_number (snd q) -> off_corners p q x ->
  fin (segment_alpha E (fst p) (snd p) (fst q) (snd q) x) /\
  Rabs (B2R (segment_alpha E (fst p) (snd p) (fst q) (snd q) x) - ramp p q x) <= / 100000.
Proof.
  intros S Mp Mq Fx Hx Up Uq Off. unfold segment_alpha. destruct (norm_progress p q x Mp Mq Fx Hx) as (Ft & Bt & Et).
  destruct (blend_value E p q x S Mp Mq Fx Hx Up Uq) as [Fv Ev].
  destruct (flit_near 1 10 ltac:(lia) ltac:(lia)) as [F1 A1]. destruct (flit_near 9 10 ltac:(lia) ltac:(lia)) as [F9 A9].
  destruct (flit_near 1 4 ltac:(lia) ltac:(lia)) as [F4 A4]. destruct (flit_near 3 4 ltac:(lia) ltac:(lia)) as [F3 A3].
  apply Rabs_le_inv in A1, A9, A4, A3, Et. unfold ramp, off_corners in *. set (t := normalize_to_range _ _ _) in *. set (w := (B2R x - _) / _) in *.
  destruct Off as (O1 & O2 & O3 & O4).
  replace (fleb (fst p) x) with true by (symmetry; apply fleb_le; auto; [apply Mp|lra]).
  replace (fleb x (fst q)) with true by (symmetry; apply fleb_le; auto; [apply Mq|lra]). cbn [andb].
  assert (Sp : Rabs (B2R (snd p) - B2R (snd p)) <= / 100000) by (rewrite Rminus_eq_0, Rabs_R0; lra).
  assert (Sq : Rabs (B2R (snd q) - B2R (snd q)) <= / 100000) by (rewrite Rminus_eq_0, Rabs_R0; lra).
  apply away in O1, O2, O3, O4.
  destruct (Rle_dec (B2R x) (1 / 10)) as [L1|L1].
  - replace (fleb (flit 9 10) x) with false by (symmetry; apply fleb_false; auto; lra). rewrite andb_false_r.
    replace (fleb x (flit 1 10)) with true by (symmetry; apply fleb_le; auto; destruct O1; lra). rewrite andb_true_r.
    destruct (Rle_dec w (1 / 4)) as [L2|L2].
    + replace (fleb t (flit 1 4)) with true by (symmetry; apply fleb_le; auto; destruct O3; lra). split; [apply Up|exact Sp].
    + replace (fleb t (flit 1 4)) with false by (symmetry; apply fleb_false; auto; destruct O3; lra). auto.
  - replace (fleb x (flit 1 10)) with false by (symmetry; apply fleb_false; auto; destruct O1; lra). rewrite andb_false_r.
    destruct (Rle_dec (9 / 10) (B2R x)) as [L2|L2].
    + replace (fleb (flit 9 10) x) with true by (symmetry; apply fleb_le; auto; destruct O2; lra). rewrite andb_true_r.
      destruct (Rle_dec (3 / 4) w) as [L3|L3].
      * replace (fleb (flit 3 4) t) with true by (symmetry; apply fleb_le; auto; destruct O4; lra). split; [apply Uq|exact Sq].
      * replace (fleb (flit 3 4) t) with false by (symmetry; apply fleb_false; auto; destruct O4; lra). auto.
    + replace (fleb (flit 9 10) x) with false by (symmetry; apply fleb_false; auto; destruct O2; lra). rewrite andb_false_r. auto.
Qed.
Lemma ramp_range p q x : unit_number (snd p) -> unit_number (snd q) -> B2R (fst p) <= B2R x < B2R (fst q) -> 0 <= ramp p q x <= 1.
Proof.
  intros Up Uq H. pose proof (blended_range p q x Up Uq H). destruct Up as [_ Up], Uq as [_ Uq]. unfold ramp.
  destruct (Rle_dec _ _); [destruct (Rle_dec _ _); assumption|]. destruct (Rle_dec _ _); [|assumption]. destruct (Rle_dec _ _); assumption.
Qed.
(** Between two opacity stops a colour stop gets the least of the ramp and of all inner opacities. *)
Theorem C81_exact : forall E l count o a k p q, solves E -> imported_stop E l count o a ->
  let ops := opacity_stops l count in sound_opacities ops ->
  nth_error ops k = Some p -> nth_error ops (S k) = Some q -> fin o -> B2R (fst p) <= B2R o < B2R (fst q) -> off_corners p q o ->
  least ops (ramp p q o) a.
Proof.
  intros E l count o a k p q S I ops [Sane U] Hp Hq Fo Ho Mo. rewrite Forall_forall in U.
  assert (Up : unit_number (snd p)) by (apply U; eapply nth_error_In; eauto).
  assert (Uq : unit_number (snd q)) by (apply U; eapply nth_error_In; eauto).
  assert (Mp : moderate (fst p)). { destruct Sane as [Fa _]. rewrite Forall_forall in Fa. apply Fa. eapply nth_error_In; eauto. }
  assert (Mq : moderate (fst q)). { destruct Sane as [Fa _]. rewrite Forall_forall in Fa. apply Fa. eapply nth_error_In; eauto. }
  destruct (segment_ramp E p q o S Mp Mq Fo Ho Up Uq Mo) as [Fv Ev].
  destruct (scan_between E ops k p q o Sane Hp Hq Fo Ho Fv) as (Fa & L1 & Lv & Li & C). cbv zeta in *.
  unfold least. rewrite (imported_stop_alpha _ _ _ _ _ I). fold ops. set (z := alpha_scan E o None ops f1) in *.
  set (v := segment_alpha _ _ _ _ _ _) in *. pose proof (ramp_range p q o Up Uq Ho) as Rb. set (b := ramp p q o) in *.
  apply Rabs_le_inv in Ev.
  assert (Z0 : 0 - / 100000 <= B2R z).
  { destruct C as [->|[->|(r & (j & _ & Hr) & ->)]]; [rewrite f1_R; lra|lra|].
    destruct (U r ltac:(eapply nth_error_In; eauto)) as [_ ?]. lra. }
  destruct (f32_close z (B2R z) 0 Fa ltac:(bnd) ltac:(lra)) as [Ga Na]. { rewrite Rminus_eq_0, Rabs_R0. lra. }
  apply Rabs_le_inv in Na. split; [exact Ga|]. split; [lra|]. split.
  - intros r Hr. specialize (Li r Hr). lra.
  - destruct C as [C|[C|(r & Hr & C)]].
    + left. rewrite C, f1_R in Lv. rewrite C, f1_R in Na. rewrite C. bnd.
    + left. rewrite C in Na. rewrite C. bnd.
    + right. exists r. split; [exact Hr|]. rewrite C in Na. rewrite C. bnd.
Qed.
Lemma f32_one : B2R (f64_to_f32 f1) = 1.
Proof. vm_compute. lra. Qed.
(** Outside the opacity stops it gets the least of the nearest one and all inner ones; with less than two there are none to speak of. *)
Theorem C81_outside : forall E l count o a, imported_stop E l count o a ->
  let ops := opacity_stops l count in sound_opacities ops -> moderate o ->
  ((List.length ops < 2)%nat -> B2R a = 1) /\
  ((2 <= List.length ops)%nat -> forall p, (nth_error ops 0 = Some p /\ B2R o <= B2R (fst p)) \/
     (nth_error ops (List.length ops - 1) = Some p /\ B2R (fst p) <= B2R o) -> least ops (B2R (snd p)) a).
Proof.
  intros E l count o a I ops [[Fo Inc] U] Mo. rewrite (imported_stop_alpha _ _ _ _ _ I). fold ops. rewrite alpha_scan_eq. split.
  { intros L. destruct ops as [|x [|y r]]; cbn [List.length] in L; [| |lia]; cbn [segments map fold_left]; exact f32_one. }
  intros L p Hp. rewrite Forall_forall in Fo, U.
  assert (SegV : (forall j s, nth_error (segments None ops) j = Some s -> seg_alpha E o s = snd (fst s) /\ nth_error ops 0 = Some p) \/
                 (forall j s, nth_error (segments None ops) j = Some s -> seg_alpha E o s = snd (snd s) /\ nth_error ops (List.length ops - 1) = Some p)).
  { destruct Hp as [[Hp Le]|[Hp Le]]; [left|right]; (intros j [s1 s2] Hj; split; [|exact Hp]); apply segments_at in Hj; cbn [fst snd] in Hj; destruct Hj as [H1 H2].
    all: assert (M1 : moderate (fst s1)) by (apply Fo; eapply nth_error_In; eauto).
    all: assert (M2 : moderate (fst s2)) by (apply Fo; eapply nth_error_In; eauto).
    all: assert (L12 : fltb (fst s1) (fst s2) = true) by (eapply (Inc j (S j)); eauto).
    all: assert (Mp : moderate (fst p)) by (apply Fo; eapply nth_error_In; eauto).
    all: assert (S j < List.length ops)%nat by (apply nth_error_Some; congruence).
    all: unfold seg_alpha; cbn [fst snd].
    - apply seg_before; auto. apply Rle_trans with (1 := Le). destruct j as [|j].
      + assert (s1 = p) by congruence. subst. lra.
      + apply Rlt_le. apply fltb_lt; [apply Mp|apply M1|]. eapply (Inc 0%nat (S j)); eauto. lia.
    - apply seg_after; auto. apply Rle_trans with (2 := Le). destruct (Nat.eq_dec (S j) (List.length ops - 1)) as [Q|Q].
      + rewrite Q in H2. assert (s2 = p) by congruence. subst. lra.
      + apply Rlt_le. apply fltb_lt; [apply M2|apply Mp|]. eapply (Inc (S j) (List.length ops - 1)%nat); eauto. lia. }
  set (vs := map (seg_alpha E o) (segments None ops)). set (z := fold_left fmin vs f1).
  (** what is in the list *)
  assert (Mem : forall y, In y vs <-> y = snd p \/ exists r, inner ops r /\ y = snd r).
  { intros y. unfold vs. rewrite in_map_iff. split.
    - intros (s & <- & Hin). apply In_nth_error in Hin as (j & Hj). pose proof Hj as Hj'. apply segments_at in Hj' as [H1 H2].
      assert (Lj : (S j < List.length ops)%nat) by (apply nth_error_Some; congruence).
      destruct SegV as [SV|SV]; destruct (SV j s Hj) as [-> Q].
      + destruct j as [|j]; [left; congruence|]. right. exists (fst s). split; [|reflexivity]. exists (S j). split; [lia|exact H1].
      + destruct (Nat.eq_dec (S j) (List.length ops - 1)) as [Q'|Q']; [left; rewrite Q' in H2; congruence|]. right. exists (snd s). split; [|reflexivity]. exists (S j). split; [lia|exact H2].
    - intros H. destruct SegV as [SV|SV].
      + assert (X : exists j r, nth_error ops j = Some r /\ (S j < List.length ops)%nat /\ y = snd r).
        { destruct H as [->|(r & (j & Hj & Hr) & ->)]; [|exists j, r; split; [exact Hr|split; [lia|reflexivity]]].
          destruct (nth_error (segments None ops) 0) as [s|] eqn:S0.
          - destruct (SV 0%nat s S0) as [_ Q]. exists 0%nat, p. split; [exact Q|]. split; [lia|reflexivity].
          - exfalso. destruct (nth_error ops 0) as [u|] eqn:E0; [|apply nth_error_None in E0; lia]. destruct (nth_error ops 1) as [w|] eqn:E1; [|apply nth_error_None in E1; lia].
            assert (nth_error (segments None ops) 0 = Some (u, w)) by (apply segments_at; auto). congruence. }
        destruct X as (j & r & Hr & Lj & ->). destruct (nth_error ops (S j)) as [w|] eqn:E1; [|apply nth_error_None in E1; lia].
        assert (Sg : nth_error (segments None ops) j = Some (r, w)) by (apply segments_at; auto). exists (r, w). split; [|eapply nth_error_In; eauto]. now destruct (SV j _ Sg) as [-> _].
      + assert (X : exists j r, nth_error ops (S j) = Some r /\ y = snd r).
        { destruct H as [->|(r & (j & Hj & Hr) & ->)]; [|destruct j as [|j]; [lia|exists j, r; auto]].
          destruct (nth_error (segments None ops) 0) as [s|] eqn:S0.
          - destruct (SV 0%nat s S0) as [_ Q]. exists (List.length ops - 2)%nat, p. split; [|reflexivity]. rewrite <- Q. f_equal. lia.
          - exfalso. destruct (nth_error ops 0) as [u|] eqn:E0; [|apply nth_error_None in E0; lia]. destruct (nth_error ops 1) as [w|] eqn:E1; [|apply nth_error_None in E1; lia].
            assert (nth_error (segments None ops) 0 = Some (u, w)) by (apply segments_at; auto). congruence. }
        destruct X as (j & r & Hr & ->). assert (S j < List.length ops)%nat by (apply nth_error_Some; congruence).
        destruct (nth_error ops j) as [w|] eqn:E1; [|apply nth_error_None in E1; lia].
        assert (Sg : nth_error (segments None ops) j = Some (w, r)) by (apply segments_at; auto). exists (w, r). split; [|eapply nth_error_In; eauto]. now destruct (SV j _ Sg) as [-> _]. }
  assert (Up : unit_number (snd p)) by (apply U; destruct Hp as [[Hp _]|[Hp _]]; eapply nth_error_In; eauto).
  assert (Ur : forall r, inner ops r -> unit_number (snd r)) by (intros r (j & _ & Hr); apply U; eapply nth_error_In; eauto).
  assert (Uv : forall y, In y vs -> unit_number y) by (intros y Hy; apply Mem in Hy as [->|(r & Hr & ->)]; auto).
  assert (Cz : z = f1 \/ In z vs) by (destruct (fold_fmin_in vs f1); auto).
  assert (Uz : unit_number z) by (destruct Cz as [->|Cz]; [split; [reflexivity|rewrite f1_R; lra]|auto]). destruct Uz as [Fz Bz].
  assert (Le : forall y, In y vs -> B2R z <= B2R y).
  { intros y Hy. destruct (Uv y Hy) as [Fy _]. apply fleb_le; auto. unfold z. apply fold_fmin_le; auto. now destruct y. }
  destruct (f32_close z (B2R z) 0 Fz ltac:(bnd) ltac:(lra)) as [Ga Na]. { rewrite Rminus_eq_0, Rabs_R0. lra. }
  apply Rabs_le_inv in Na. assert (Lp : B2R z <= B2R (snd p)) by (apply Le, Mem; auto). split; [exact Ga|]. split; [lra|]. split.
  - intros r Hr. assert (B2R z <= B2R (snd r)) by (apply Le, Mem; eauto). lra.
  - destruct Cz as [C|C]; [left; rewrite C, f1_R in Lp, Na; rewrite C; destruct Up as [_ Up]; bnd|].
    apply Mem in C as [C|(r & Hr & C)]; [left|right; exists r; split; [exact Hr|]]; rewrite C in Na; rewrite C; bnd.
Qed.
(** Opacity 0 at 0 and 1 at 1: the stop at 1/16 is on the flat part of the ramp, and outside of it the stops at the ends. *)
Example C81_exact_applies : forall E, solves E -> exists a, imported_stop E fade_late 3 f_16th a /\ opacity_stops fade_late 3 = [(f0, f0); (f1, f1)] /\
  off_corners (f0, f0) (f1, f1) f_16th /\ ramp (f0, f0) (f1, f1) f_16th = 0 /\ least [(f0, f0); (f1, f1)] 0 a.
Proof.
  intros E S. destruct (imported_fill E fade_late 3 1 f_16th) as (a & Ha); try (cbn [fade_late List.length]; lia); [reflexivity|].
  exists a. split; [exact Ha|]. split; [reflexivity|].
  assert (Off : off_corners (f0, f0) (f1, f1) f_16th).
  { unfold off_corners. cbn [fst snd]. rewrite f0_R, f1_R, f_16th_R. repeat split; unfold Rabs; match goal with |- context [Rcase_abs ?x] => destruct (Rcase_abs x) end; lra. }
  assert (Rm : ramp (f0, f0) (f1, f1) f_16th = 0).
  { unfold ramp. cbn [fst snd]. rewrite f0_R, f1_R, f_16th_R. destruct (Rle_dec _ _); [|lra]. destruct (Rle_dec _ _); lra. }
  split; [exact Off|]. split; [exact Rm|]. rewrite <- Rm.
  apply (C81_exact E fade_late 3 f_16th a 0 (f0, f0) (f1, f1) S Ha fade_sound eq_refl eq_refl); [vm_compute; reflexivity| |exact Off].
  cbn [fst]. rewrite f0_R, f1_R, f_16th_R. lra.
Qed.
