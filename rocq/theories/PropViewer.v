(** C74: which scene the viewer shows; C75: navigation touches. *)
From Coq Require Import ZArith Bool List Lia Reals Lra.
From Flocq Require Import Core BinarySingleNaN.
From Verif Require Import F64 F64Facts Kurbo Value Stats Viewer PropStats PropTouch.
Import ListNotations.
Open Scope list_scope.
Open Scope Z_scope.

(** ** What the user did *)
(** A touch in the bottom third of the window, in its left or right third. *)
Definition zone_move (w h : f64) (t : touch) : Z :=
  match te_phase t with
  | Started =>
      if fltb (fdiv (fmul h (f_of_Z 2)) (f_of_Z 3)) (py (te_pos t)) then
        if fltb (px (te_pos t)) (fdiv w (f_of_Z 3)) then -1
        else if fltb (fdiv (fmul (f_of_Z 2) w) (f_of_Z 3)) (px (te_pos t)) then 1 else 0
      else 0
  | _ => 0
  end.
(** Steps to the right minus steps to the left. *)
Definition step_of (e : viewer_event) : Z :=
  match e with VeKey KRight => 1 | VeKey KLeft => -1 | VeTouch w h t => zone_move w h t | _ => 0 end.
Definition steps (es : list viewer_event) : Z := fold_right (fun e z => step_of e + z) 0 es.
(** Presses of M, backwards while shift is held. *)
Fixpoint aa_steps (shift : bool) (es : list viewer_event) : Z :=
  match es with
  | [] => 0
  | VeShift b :: es => aa_steps b es
  | VeKey KAa :: es => (if shift then -1 else 1) + aa_steps shift es
  | _ :: es => aa_steps shift es
  end.
Definition shift_after (es : list viewer_event) : bool :=
  fold_left (fun s e => match e with VeShift b => b | _ => s end) es false.
(** Frame times and resets of the statistics. *)
Definition stats_ops (es : list viewer_event) : list stats_op :=
  flat_map (fun e => match e with VeRedraw m => [OpSample m] | VeKey KClear => [OpClear] | _ => [] end) es.

Section Viewer.
Context (E : Ext) (atan2 : f64 -> f64 -> f64) (scenes start : Z).
(** There are scenes, and not as many of anything as there are [i32]s. *)
Definition sane (es : list viewer_event) : Prop :=
  0 < scenes /\ Z.abs start + scenes + Z.of_nat (List.length es) < 2147483640 /\
  forall m, In (VeRedraw m) es -> 0 <= m <= 2 ^ 46.
(** The whole session. *)
Definition session (es : list viewer_event) : res (viewer * list shown) :=
  let! v := viewer_new (Some start) in viewer_run E atan2 scenes v es.

Lemma run_app a : forall v b, viewer_run E atan2 scenes v (a ++ b) =
  let! (v, ss) := viewer_run E atan2 scenes v a in
  let! (v, ss') := viewer_run E atan2 scenes v b in Ok (v, ss ++ ss').
Proof.
  induction a as [|e a IH]; intros v b; cbn [app viewer_run bind].
  - destruct (viewer_run E atan2 scenes v b) as [[v' ss]| |]; reflexivity.
  - destruct (viewer_step E atan2 scenes v e) as [[v1 s]| |]; cbn [bind]; try reflexivity. rewrite IH.
    destruct (viewer_run E atan2 scenes v1 a) as [[v2 ss]| |]; cbn [bind]; try reflexivity.
    destruct (viewer_run E atan2 scenes v2 b) as [[v3 ss']| |]; cbn [bind]; try reflexivity. now destruct s.
Qed.
Lemma session_snoc es e : session (es ++ [e]) =
  let! (v, ss) := session es in let! (v, s) := viewer_step E atan2 scenes v e in Ok (v, ss ++ match s with Some s => [s] | None => [] end).
Proof.
  unfold session. destruct (viewer_new (Some start)) as [v| |]; cbn [bind]; try reflexivity. rewrite run_app.
  destruct (viewer_run E atan2 scenes v es) as [[v1 ss]| |]; cbn [bind]; try reflexivity. cbn [viewer_run].
  destruct (viewer_step E atan2 scenes v1 e) as [[v2 s]| |]; reflexivity.
Qed.

Record inv (es : list viewer_event) (v : viewer) (ss : list shown) : Prop := {
  inv_stats : stats_run stats_new (stats_ops es) = Ok (vw_stats v);
  inv_complexity : 0 <= vw_complexity v <= Z.of_nat (List.length es);
  inv_scene : (vw_scene v - (start + steps es)) mod scenes = 0;
  inv_scene_b : Z.abs (vw_scene v) <= Z.abs start + scenes + Z.of_nat (List.length es);
  inv_aa : (vw_aa v - aa_steps false es) mod 3 = 0;
  inv_aa_b : Z.abs (vw_aa v) <= 3 + Z.of_nat (List.length es);
  inv_shift : vw_shift v = shift_after es;
  inv_prev : match rev ss with s :: _ => vw_prev v = sh_scene s | [] => True end;
  inv_shown : Forall (fun s => 0 <= sh_scene s < scenes /\ 0 <= sh_aa s < 3) ss }.

Lemma steps_snoc es e : steps (es ++ [e]) = steps es + step_of e.
Proof. unfold steps. induction es as [|x es IH]; cbn [app fold_right]; [lia|]. rewrite IH. lia. Qed.
Lemma shift_snoc es e : shift_after (es ++ [e]) = match e with VeShift b => b | _ => shift_after es end.
Proof. unfold shift_after. rewrite fold_left_app. reflexivity. Qed.
Lemma aa_snoc es e : aa_steps false (es ++ [e]) = aa_steps false es + match e with VeKey KAa => if shift_after es then -1 else 1 | _ => 0 end.
Proof.
  unfold shift_after. generalize false. induction es as [|x es IH]; intros b.
  - cbn [app fold_left]. destruct e as [|b'|[]| | | | | | | |]; cbn [aa_steps]; lia.
  - destruct x as [|b'|[]| | | | | | | |]; cbn [app aa_steps fold_left]; rewrite IH; lia.
Qed.
Lemma ops_snoc es e : stats_ops (es ++ [e]) = stats_ops es ++ stats_ops [e].
Proof. unfold stats_ops. now rewrite flat_map_app. Qed.
Lemma sat_id z : Z.abs z < 2147483648 -> i32_sat z = z.
Proof. unfold i32_sat, i32_min, i32_max. lia. Qed.
Lemma touch_flags v w h t : let v' := on_touch v w h t in
  vw_stats v' = vw_stats v /\ vw_complexity v' = vw_complexity v /\ vw_aa v' = vw_aa v /\ vw_shift v' = vw_shift v /\ vw_prev v' = vw_prev v /\
  vw_scene v' = (if zone_move w h t =? 0 then vw_scene v else i32_sat (vw_scene v + zone_move w h t)).
Proof.
  cbv zeta. unfold on_touch, zone_move, in_zone. destruct (te_phase t); try (split; [reflexivity|auto 6]; fail).
  destruct (fltb (fdiv (fmul h (f_of_Z 2)) (f_of_Z 3)) (py (te_pos t))); [|auto 7].
  destruct (fltb (px (te_pos t)) (fdiv w (f_of_Z 3))); [auto 7|].
  destruct (fltb (fdiv (fmul (f_of_Z 2) w) (f_of_Z 3)) (px (te_pos t))); auto 7.
Qed.
Lemma zone_small w h t : Z.abs (zone_move w h t) <= 1.
Proof. unfold zone_move. destruct (te_phase t); try lia. repeat (destruct (fltb _ _); try lia). Qed.
Lemma mod_shift a b c n : 0 < n -> (a - b) mod n = 0 -> (a + c - (b + c)) mod n = 0.
Proof. intros _ H. now replace (a + c - (b + c)) with (a - b) by lia. Qed.
Lemma plain_step es e v ss v' : inv es v ss ->
  vw_stats v' = vw_stats v -> stats_ops [e] = [] -> vw_complexity v' = vw_complexity v -> vw_aa v' = vw_aa v ->
  (match e with VeKey KAa => False | _ => True end) -> vw_shift v' = match e with VeShift b => b | _ => vw_shift v end ->
  vw_prev v' = vw_prev v -> vw_scene v' = vw_scene v + step_of e -> Z.abs (step_of e) <= 1 -> inv (es ++ [e]) v' ss.
Proof.
  intros [] Es Eo Ec Ea Ne Eh Ep Ei Hs. constructor.
  - rewrite ops_snoc, Eo, app_nil_r, Es. assumption.
  - rewrite app_length, Ec. cbn [List.length]. lia.
  - rewrite steps_snoc, Ei. replace (vw_scene v + step_of e - (start + (steps es + step_of e))) with (vw_scene v - (start + steps es)) by lia. assumption.
  - rewrite app_length, Ei. cbn [List.length]. lia.
  - rewrite aa_snoc, Ea. destruct e as [| |[]| | | | | | | |]; try (rewrite Z.add_0_r; assumption). destruct Ne.
  - rewrite app_length, Ea. cbn [List.length]. lia.
  - rewrite shift_snoc, Eh. destruct e; assumption || reflexivity.
  - rewrite Ep. assumption.
  - assumption.
Qed.
Lemma stats_ops_ok es : sane es -> plausible (stats_ops es).
Proof.
  intros (_ & _ & H) m Hin. apply H. unfold stats_ops in Hin. apply in_flat_map in Hin as (e & He & Hin).
  destruct e as [| |[]| | | | | |m'| |]; cbn [In] in Hin; try contradiction.
  - destruct Hin as [X|[]]. discriminate.
  - destruct Hin as [X|[]]. injection X as ->. exact He.
Qed.
Lemma key_step es k v ss : sane (es ++ [VeKey k]) -> inv es v ss -> exists v', on_key E v k = Ok v' /\ inv (es ++ [VeKey k]) v' ss.
Proof.
  intros (Hn & Hb & _) I. pose proof I as []. rewrite app_length in Hb. cbn [List.length] in Hb.
  assert (Plain : forall v', on_key E v k = Ok v' -> vw_stats v' = vw_stats v -> stats_ops [VeKey k] = [] -> vw_complexity v' = vw_complexity v ->
    vw_aa v' = vw_aa v -> k <> KAa -> vw_shift v' = vw_shift v -> vw_prev v' = vw_prev v -> vw_scene v' = vw_scene v + step_of (VeKey k) ->
    exists v', on_key E v k = Ok v' /\ inv (es ++ [VeKey k]) v' ss).
  { intros v' Ev H1 H2 H3 H4 H5 H6 H7 H8. exists v'. split; [exact Ev|]. eapply plain_step; eauto.
    - destruct k; try exact Logic.I. now elim H5.
    - destruct k; cbn [step_of]; lia. }
  destruct k; cbn [on_key] in *.
  - eapply Plain; [reflexivity|..]; try reflexivity; [discriminate|]. cbn [vw_scene set_scene step_of]. rewrite sat_id; lia.
  - eapply Plain; [reflexivity|..]; try reflexivity; [discriminate|]. cbn [vw_scene set_scene step_of]. rewrite sat_id; lia.
  - unfold u64_add, u64_max. rewrite (proj2 (Z.leb_le _ _)) by lia. cbn [bind]. eexists. split; [reflexivity|].
    constructor; cbn [set_flags vw_stats vw_complexity vw_scene vw_aa vw_shift vw_prev]; rewrite ?ops_snoc, ?app_length, ?steps_snoc, ?aa_snoc, ?shift_snoc; cbn [stats_ops flat_map step_of List.length app]; rewrite ?app_nil_r, ?Z.add_0_r; try assumption; lia.
  - eexists. split; [reflexivity|].
    constructor; cbn [set_flags vw_stats vw_complexity vw_scene vw_aa vw_shift vw_prev]; rewrite ?ops_snoc, ?app_length, ?steps_snoc, ?aa_snoc, ?shift_snoc; cbn [stats_ops flat_map step_of List.length app]; rewrite ?app_nil_r, ?Z.add_0_r; try assumption; lia.
  - eapply Plain; [reflexivity|..]; try reflexivity; [discriminate|]. cbn [vw_scene set_transform step_of]. lia.
  - eapply Plain; [reflexivity|..]; try reflexivity; [discriminate|]. cbn [vw_scene set_flags step_of]. lia.
  - destruct (vw_prior v) as [p|]; (eapply Plain; [reflexivity|..]; try reflexivity; [discriminate|]; cbn [vw_scene set_transform step_of]; lia).
  - eapply Plain; [reflexivity|..]; try reflexivity; [discriminate|]. cbn [vw_scene set_flags step_of]. lia.
  - eapply Plain; [reflexivity|..]; try reflexivity; [discriminate|]. cbn [vw_scene set_flags step_of]. lia.
  - eexists. split; [reflexivity|].
    constructor; cbn [set_flags vw_stats vw_complexity vw_scene vw_aa vw_shift vw_prev]; rewrite ?ops_snoc, ?app_length, ?steps_snoc, ?aa_snoc, ?shift_snoc; cbn [stats_ops flat_map step_of List.length app]; rewrite ?app_nil_r, ?Z.add_0_r; try assumption; try lia.
    rewrite stats_run_app, inv_stats0. reflexivity.
  - eexists. split; [reflexivity|]. rewrite sat_id by (destruct (vw_shift v); lia).
    constructor; cbn [set_flags vw_stats vw_complexity vw_scene vw_aa vw_shift vw_prev]; rewrite ?ops_snoc, ?app_length, ?steps_snoc, ?aa_snoc, ?shift_snoc; cbn [stats_ops flat_map step_of List.length app]; rewrite ?app_nil_r, ?Z.add_0_r; try assumption; try lia.
    + rewrite <- inv_shift0. destruct (vw_shift v); [replace (vw_aa v - 1 - (aa_steps false es + -1)) with (vw_aa v - aa_steps false es) by lia|replace (vw_aa v + 1 - (aa_steps false es + 1)) with (vw_aa v - aa_steps false es) by lia]; assumption.
    + destruct (vw_shift v); lia.
  - eapply Plain; [reflexivity|..]; try reflexivity; [discriminate|]. cbn [vw_scene set_flags step_of]. lia.
  - eapply Plain; [reflexivity|..]; try reflexivity; [discriminate|]. cbn [step_of]. lia.
Qed.
Lemma mod_le z n : 0 < n -> Z.abs (z mod n) <= n.
Proof. intros H. pose proof (Z.mod_pos_bound z n H). lia. Qed.
Lemma mod_again z s n : 0 < n -> (z - s) mod n = 0 -> (z mod n - s) mod n = 0 /\ z mod n = s mod n.
Proof.
  intros H M. assert (X : z mod n = s mod n).
  { replace z with (s + (z - s)) by lia. rewrite Z.add_mod, M, Z.add_0_r, Z.mod_mod by lia. reflexivity. }
  split; [|exact X]. rewrite X. rewrite Zminus_mod, Z.mod_mod, Z.sub_diag by lia. apply Z.mod_0_l. lia.
Qed.
Lemma redraw_step es m v ss : sane (es ++ [VeRedraw m]) -> inv es v ss ->
  exists v' s, on_redraw scenes v m = Ok (v', s) /\ inv (es ++ [VeRedraw m]) v' (ss ++ [s]) /\
    s = mkShown ((start + steps es) mod scenes) (if vw_prev v =? (start + steps es) mod scenes then vw_transform v else affine_identity) (aa_steps false es mod 3).
Proof.
  intros S I. pose proof S as (Hn & Hb & Hm). pose proof I as []. rewrite app_length in Hb. cbn [List.length] in Hb.
  destruct (mod_again _ _ _ Hn inv_scene0) as [A1 A2]. destruct (mod_again _ _ 3 ltac:(lia) inv_aa0) as [B1 B2].
  pose proof (Z.mod_pos_bound (vw_scene v) scenes Hn) as R1. pose proof (Z.mod_pos_bound (vw_aa v) 3 ltac:(lia)) as R2.
  destruct (C72_window _ (stats_ops_ok _ S)) as (st & Rst & _). rewrite ops_snoc, stats_run_app, inv_stats0 in Rst. cbn [bind stats_ops flat_map app stats_run stats_step] in Rst.
  destruct (add_sample (vw_stats v) m) as [st'| |] eqn:As; cbn [bind] in Rst; try discriminate.
  unfold on_redraw, rem_i32. destruct (Z.eqb_spec scenes 0); [lia|]. cbn [bind]. change (3 =? 0) with false. cbv match. cbn [bind].
  rewrite (proj2 (Z.leb_le _ _) (proj1 R1)), (proj2 (Z.ltb_lt _ _) (proj2 R1)). cbn [andb bind].
  rewrite (proj2 (Z.leb_le _ _) (proj1 R2)), (proj2 (Z.ltb_lt _ _) (proj2 R2)). cbn [andb bind]. rewrite As. cbn [bind].
  do 2 eexists. split; [reflexivity|]. split; [|now rewrite A2, B2].
  constructor; cbn [vw_stats vw_complexity vw_scene vw_aa vw_shift vw_prev]; rewrite ?ops_snoc, ?app_length, ?steps_snoc, ?aa_snoc, ?shift_snoc; cbn [step_of List.length]; rewrite ?Z.add_0_r; try assumption; try lia.
  - rewrite stats_run_app, inv_stats0. cbn [bind stats_ops flat_map app stats_run stats_step]. rewrite As. reflexivity.
  - rewrite rev_app_distr. reflexivity.
  - apply Forall_app. split; [assumption|]. constructor; [|constructor]. cbn [sh_scene sh_aa]. auto.
Qed.
Lemma sane_snoc es e : sane (es ++ [e]) -> sane es.
Proof.
  intros (H1 & H2 & H3). split; [exact H1|]. rewrite app_length in H2. cbn [List.length] in H2. split; [lia|].
  intros m Hm. apply H3. apply in_or_app. now left.
Qed.
Lemma inv_flags es e v ss v' : inv es v ss ->
  vw_stats v' = vw_stats v -> vw_complexity v' = vw_complexity v -> vw_aa v' = vw_aa v -> vw_shift v' = vw_shift v ->
  vw_prev v' = vw_prev v -> vw_scene v' = vw_scene v -> stats_ops [e] = [] -> step_of e = 0 ->
  (match e with VeKey KAa | VeShift _ => False | _ => True end) -> inv (es ++ [e]) v' ss.
Proof.
  intros I H1 H2 H3 H4 H5 H6 H7 H8 H9. eapply plain_step; eauto.
  - destruct e as [| |[]| | | | | | | |]; exact H9 || exact Logic.I.
  - destruct e; assumption || destruct H9.
  - lia.
  - lia.
Qed.
Lemma all_inv es : sane es -> exists v ss, session es = Ok (v, ss) /\ inv es v ss.
Proof.
  induction es as [|e es IH] using rev_ind; intros S.
  - pose proof S as (Hn & Hb & _). cbn [List.length] in Hb. unfold session, viewer_new. rewrite (proj2 (Z.ltb_ge _ _)) by (unfold i32_min; lia). cbn [bind viewer_run].
    do 2 eexists. split; [reflexivity|]. constructor; cbn [vw_stats vw_complexity vw_scene vw_aa vw_shift vw_prev steps fold_right aa_steps List.length rev]; try reflexivity; try lia; try constructor.
    replace (start - (start + 0)) with 0 by lia. apply Z.mod_0_l. lia.
  - destruct (IH (sane_snoc _ _ S)) as (v & ss & R & I). rewrite session_snoc, R. cbn [bind].
    destruct e as [|b|k|w h t|b|x| |p|m| |]; cbn [viewer_step].
    + cbn [on_key bind]. do 2 eexists. split; [reflexivity|]. rewrite app_nil_r. eapply inv_flags; eauto; reflexivity.
    + cbn [bind]. do 2 eexists. split; [reflexivity|]. rewrite app_nil_r. eapply plain_step; eauto; try reflexivity; cbn [step_of]; [cbn [vw_scene set_flags]|]; lia.
    + destruct (key_step es k v ss S I) as (v' & -> & I'). cbn [bind]. do 2 eexists. split; [reflexivity|]. now rewrite app_nil_r.
    + cbn [bind]. do 2 eexists. split; [reflexivity|]. rewrite app_nil_r. destruct (touch_flags v w h t) as (H1 & H2 & H3 & H4 & H5 & H6).
      apply (plain_step es (VeTouch w h t) v ss); [exact I|exact H1|reflexivity|exact H2|exact H3|exact Logic.I|exact H4|exact H5| |apply zone_small]. rewrite H6. cbn [step_of]. destruct (Z.eqb_spec (zone_move w h t) 0) as [->|]; [lia|].
      apply sat_id. pose proof (zone_small w h t). destruct I. destruct S as (_ & Hb & _). rewrite app_length in Hb. cbn [List.length] in Hb. lia.
    + cbn [bind]. do 2 eexists. split; [reflexivity|]. rewrite app_nil_r. eapply inv_flags; eauto; reflexivity.
    + cbn [bind]. do 2 eexists. split; [reflexivity|]. rewrite app_nil_r. unfold on_wheel. destruct (vw_prior v); eapply inv_flags; eauto; reflexivity.
    + cbn [bind]. do 2 eexists. split; [reflexivity|]. rewrite app_nil_r. eapply inv_flags; eauto; reflexivity.
    + cbn [bind]. do 2 eexists. split; [reflexivity|]. rewrite app_nil_r. unfold on_cursor. destruct (vw_prior v); [destruct (vw_mouse v)|]; eapply inv_flags; eauto; reflexivity.
    + destruct (redraw_step es m v ss S I) as (v' & s & -> & I' & _). cbn [bind]. do 2 eexists. split; [reflexivity|exact I'].
    + cbn [bind]. do 2 eexists. split; [reflexivity|]. rewrite app_nil_r. unfold on_wait. cbv zeta. destruct (info _); eapply inv_flags; eauto; reflexivity.
    + cbn [bind]. do 2 eexists. split; [reflexivity|]. rewrite app_nil_r. eapply inv_flags; eauto; reflexivity.
Qed.

(** ** C74 *)
(** No sequence of events crashes the viewer, and every frame shows an existing
    scene with an existing kind of antialiasing. *)
Theorem C74_runs : forall es, sane es -> exists v ss, session es = Ok (v, ss) /\
  Forall (fun s => 0 <= sh_scene s < scenes /\ 0 <= sh_aa s < 3) ss.
Proof. intros es S. destruct (all_inv es S) as (v & ss & R & []). exists v, ss. auto. Qed.
(** The scene shown is the first one moved by the steps so far, around the list
    of scenes, and likewise for the antialiasing. When it is another scene than
    before the view is reset. *)
Theorem C74_shown : forall es m, sane (es ++ [VeRedraw m]) -> exists v ss v' s,
  session es = Ok (v, ss) /\ session (es ++ [VeRedraw m]) = Ok (v', ss ++ [s]) /\
  sh_scene s = (start + steps es) mod scenes /\ sh_aa s = aa_steps false es mod 3 /\ sh_transform s = vw_transform v' /\
  forall before, last (map (fun s => Some (sh_scene s)) ss) None = Some before ->
    sh_transform s = if before =? sh_scene s then vw_transform v else affine_identity.
Proof.
  intros es m S. destruct (all_inv es (sane_snoc _ _ S)) as (v & ss & R & I).
  destruct (redraw_step es m v ss S I) as (v' & s & Rs & I' & Es). exists v, ss, v', s. split; [exact R|].
  rewrite session_snoc, R. cbn [bind viewer_step]. rewrite Rs. cbn [bind]. split; [reflexivity|]. rewrite Es. cbn [sh_scene sh_aa sh_transform].
  split; [reflexivity|]. split; [reflexivity|]. split.
  - unfold on_redraw, rem_i32 in Rs. destruct S as (Hn & _). destruct (Z.eqb_spec scenes 0); [lia|]. cbn [bind] in Rs. change (3 =? 0) with false in Rs. cbv match in Rs. cbn [bind] in Rs.
    destruct (_ && _); [|discriminate]. cbn [bind] in Rs. destruct (_ && _); [|discriminate]. cbn [bind] in Rs. destruct (add_sample _ _); cbn [bind] in Rs; try discriminate.
    injection Rs as <- <-. injection Es as E1 E2 E3. cbn [vw_transform]. now rewrite E2.
  - intros before Hl. destruct I. destruct (exists_last (l := ss)) as (ss' & p & ->); [intros ->; discriminate|].
    rewrite map_app in Hl. cbn [map] in Hl. rewrite last_last in Hl. injection Hl as <-. rewrite rev_app_distr in inv_prev0. cbn in inv_prev0. now rewrite inv_prev0.
Qed.
(** Without scenes, and with the least possible number of a first scene, the viewer crashes. *)
End Viewer.
Theorem C74_refuted : forall E atan2,
  session E atan2 0 0 [VeRedraw 0] = Panic /\ session E atan2 1 (-2147483648) [] = Panic.
Proof. intros E atan2. split; reflexivity. Qed.
Definition tour : list viewer_event :=
  [VeKey KRight; VeRedraw 16000; VeKey KRight;
   VeTouch (f_of_Z 300) (f_of_Z 300) (mkTouchEv Started 7 (mkPoint (f_of_Z 10) (f_of_Z 290))); VeKey KRight; VeRedraw 17000].
Example C74_applies : forall E atan2, sane 3 1 tour /\ exists v a b, session E atan2 3 1 tour = Ok (v, [a; b]) /\ sh_scene a = 2 /\ sh_scene b = 0.
Proof.
  intros E atan2. split.
  - split; [lia|]. split; [cbn; lia|]. intros m [H|[H|[H|[H|[H|[H|[]]]]]]]; try discriminate; injection H as <-; lia.
  - assert (X : match session E atan2 3 1 tour with Ok (_, [a; b]) => (sh_scene a =? 2) && (sh_scene b =? 0) | _ => false end = true) by (vm_compute; reflexivity).
    destruct (session E atan2 3 1 tour) as [[v [|a [|b [|c l]]]]| |]; try discriminate X. exists v, a, b.
    apply andb_prop in X as [X1 X2]. apply Z.eqb_eq in X1, X2. auto.
Qed.
