(** C99: the viewer's statistics panel in a session. *)
From Coq Require Import ZArith Bool List Lia Reals Lra Arith.
From Flocq Require Import Core BinarySingleNaN.
From Verif Require Import F64 F64Facts Kurbo Value Stats Viewer PropStats PropTouch PropViewer PropFigures PropBars Panel PropPanel Session.
Import ListNotations.
Open Scope list_scope.
Open Scope Z_scope.

(** ** Specification *)
(** How often a key was pressed, and whether an odd number of times. *)
Definition presses (is : key -> bool) (es : list viewer_event) : nat := List.length (filter (fun e => match e with VeKey k => is k | _ => false end) es).
Definition toggled (is : key -> bool) (es : list viewer_event) : bool := Nat.odd (presses is es).
Definition is_stats (k : key) : bool := match k with KStats => true | _ => false end.
Definition is_complexity (k : key) : bool := match k with KComplexity => true | _ => false end.
Definition is_vsync (k : key) : bool := match k with KVsync => true | _ => false end.
(** The method with the number [n] of: area, 8 samples, 16 samples. *)
Definition method_of (n : Z) : aa_config := match n with 0 => AaArea | 1 => AaMsaa8 | _ => AaMsaa16 end.
(** The session, with the panel. *)
Definition full_session (E : Ext) (atan2 : f64 -> f64 -> f64) (scenes start : Z) (es : list (viewer_event * surroundings)) : res (viewer * list frame_shown) :=
  let! v := viewer_new (Some start) in full_run E atan2 scenes v es.
(** After these events the panel cannot be drawn: it is shown and the scale of its graph cannot be found (C72). *)
Definition stuck (es : list viewer_event) : Prop :=
  toggled is_stats es = false /\ exists s, stats_run stats_new (stats_ops es) = Ok s /\ bar_heights s = Panic.

Lemma ok_fst {A B} (a c : A) (b d : B) : Ok (a, b) = Ok (c, d) -> a = c.
Proof. congruence. Qed.

Section Proofs.
Context (E : Ext) (atan2 : f64 -> f64 -> f64) (scenes start : Z).
Notation full := (full_session E atan2 scenes start).
Notation plain := (session E atan2 scenes start).
Notation sane := (PropViewer.sane scenes start).

Lemma full_app a : forall v b, full_run E atan2 scenes v (a ++ b) =
  let! (v, ss) := full_run E atan2 scenes v a in
  let! (v, ss') := full_run E atan2 scenes v b in Ok (v, ss ++ ss').
Proof.
  induction a as [|e a IH]; intros v b; cbn [app full_run bind].
  - destruct (full_run E atan2 scenes v b) as [[v' ss]| |]; reflexivity.
  - destruct (full_step E atan2 scenes v e) as [[v1 s]| |]; cbn [bind]; try reflexivity. rewrite IH.
    destruct (full_run E atan2 scenes v1 a) as [[v2 ss]| |]; cbn [bind]; try reflexivity.
    destruct (full_run E atan2 scenes v2 b) as [[v3 ss']| |]; cbn [bind]; try reflexivity. now destruct s.
Qed.
Lemma full_snoc es e : full (es ++ [e]) =
  let! (v, ss) := full es in let! (v, s) := full_step E atan2 scenes v e in Ok (v, ss ++ match s with Some s => [s] | None => [] end).
Proof.
  unfold full_session. destruct (viewer_new (Some start)) as [v| |]; cbn [bind]; try reflexivity. rewrite full_app.
  destruct (full_run E atan2 scenes v es) as [[v1 ss]| |]; cbn [bind]; try reflexivity. cbn [full_run].
  destruct (full_step E atan2 scenes v1 e) as [[v2 s]| |]; reflexivity.
Qed.
Lemma toggled_snoc is es e : toggled is (es ++ [e]) = xorb (toggled is es) (match e with VeKey k => is k | _ => false end).
Proof.
  unfold toggled, presses. rewrite filter_app, app_length. cbn [filter]. destruct (match e with VeKey k => is k | _ => false end); cbn [List.length].
  - rewrite Nat.add_1_r, Nat.odd_succ, <- Nat.negb_odd. now rewrite xorb_true_r.
  - rewrite Nat.add_0_r. now rewrite xorb_false_r.
Qed.
Definition flags (es : list viewer_event) (v : viewer) : Prop :=
  vw_stats_shown v = negb (toggled is_stats es) /\ vw_complexity_shown v = toggled is_complexity es /\ vw_vsync v = negb (toggled is_vsync es).
Lemma flags_keep es e v v' : flags es v -> vw_stats_shown v' = vw_stats_shown v -> vw_complexity_shown v' = vw_complexity_shown v -> vw_vsync v' = vw_vsync v ->
  match e with VeKey (KStats | KComplexity | KVsync) => False | _ => True end -> flags (es ++ [e]) v'.
Proof.
  intros (A & B & C) E1 E2 E3 N. unfold flags. rewrite E1, E2, E3, A, B, C, !toggled_snoc.
  assert (X : match e with VeKey k => is_stats k | _ => false end = false /\ match e with VeKey k => is_complexity k | _ => false end = false /\
              match e with VeKey k => is_vsync k | _ => false end = false).
  { destruct e as [| |k| | | | | | | |]; auto. destruct k; try destruct N; auto. }
  destruct X as (-> & -> & ->). rewrite !xorb_false_r. auto.
Qed.
Lemma all_flags es v ss : plain es = Ok (v, ss) -> flags es v.
Proof.
  revert v ss. induction es as [|e es IH] using rev_ind; intros v ss R.
  - unfold session, viewer_new in R. destruct (_ <? _); [discriminate|]. cbn [bind viewer_run] in R. injection R as <- <-. repeat split.
  - rewrite session_snoc in R. destruct (plain es) as [[v0 ss0]| |] eqn:R0; cbn [bind] in R; try discriminate. specialize (IH v0 ss0 eq_refl).
    destruct (viewer_step E atan2 scenes v0 e) as [[v1 s]| |] eqn:St; cbn [bind] in R; try discriminate. injection R as <- _.
    destruct e as [|b|k|w h t|b|x| |p|m| |]; cbn [viewer_step on_key bind] in St.
    + apply ok_fst in St; subst v1. apply (flags_keep _ _ v0); auto; exact Logic.I.
    + apply ok_fst in St; subst v1. apply (flags_keep _ _ v0); auto; exact Logic.I.
    + destruct k; cbn [on_key bind] in St; try (apply ok_fst in St; subst v1; apply (flags_keep _ _ v0); auto; exact Logic.I).
      * destruct (u64_add _ _); cbn [bind] in St; try discriminate. apply ok_fst in St; subst v1. apply (flags_keep _ _ v0); auto; exact Logic.I.
      * destruct (vw_prior v0); cbn [bind] in St; apply ok_fst in St; subst v1; apply (flags_keep _ _ v0); auto; exact Logic.I.
      * apply ok_fst in St; subst v1. destruct IH as (A & B & C). unfold flags. cbn [set_flags vw_stats_shown vw_complexity_shown vw_vsync].
        rewrite !toggled_snoc, A, B, C. cbn [is_stats is_complexity is_vsync]. rewrite !xorb_false_r, xorb_true_r. auto.
      * apply ok_fst in St; subst v1. destruct IH as (A & B & C). unfold flags. cbn [set_flags vw_stats_shown vw_complexity_shown vw_vsync].
        rewrite !toggled_snoc, A, B, C. cbn [is_stats is_complexity is_vsync]. rewrite !xorb_false_r, xorb_true_r. auto.
      * apply ok_fst in St; subst v1. destruct IH as (A & B & C). unfold flags. cbn [set_flags vw_stats_shown vw_complexity_shown vw_vsync].
        rewrite !toggled_snoc, A, B, C. cbn [is_stats is_complexity is_vsync]. rewrite !xorb_false_r, xorb_true_r. auto.
    + apply ok_fst in St; subst v1. apply (flags_keep _ _ v0); try exact Logic.I; auto; unfold on_touch;
        destruct (te_phase t); repeat match goal with |- context [if ?b then _ else _] => destruct b end; reflexivity.
    + apply ok_fst in St; subst v1. apply (flags_keep _ _ v0); auto; exact Logic.I.
    + apply ok_fst in St; subst v1. apply (flags_keep _ _ v0); try exact Logic.I; auto; unfold on_wheel; destruct (vw_prior v0); reflexivity.
    + apply ok_fst in St; subst v1. apply (flags_keep _ _ v0); auto; exact Logic.I.
    + apply ok_fst in St; subst v1. apply (flags_keep _ _ v0); try exact Logic.I; auto; unfold on_cursor; destruct (vw_prior v0); [destruct (vw_mouse v0)| |destruct (vw_mouse v0)| |destruct (vw_mouse v0)|]; reflexivity.
    + destruct (on_redraw scenes v0 m) as [[v2 s2]| |] eqn:Rd; cbn [bind] in St; try discriminate. apply ok_fst in St; subst v1.
      unfold on_redraw in Rd. destruct (rem_i32 _ scenes); cbn [bind] in Rd; try discriminate. destruct (rem_i32 _ 3); cbn [bind] in Rd; try discriminate.
      match type of Rd with context [if ?c then Ok tt else Panic] => destruct c end; cbn [bind] in Rd; try discriminate. match type of Rd with context [if ?c then Ok tt else Panic] => destruct c end; cbn [bind] in Rd; try discriminate.
      destruct (add_sample _ _); cbn [bind] in Rd; try discriminate. apply ok_fst in Rd; subst v2. apply (flags_keep _ _ v0); auto; exact Logic.I.
    + apply ok_fst in St; subst v1. apply (flags_keep _ _ v0); try exact Logic.I; auto; unfold on_wait; cbv zeta; destruct (info _); reflexivity.
    + apply ok_fst in St; subst v1. apply (flags_keep _ _ v0); auto; exact Logic.I.
Qed.
(** The panel changes nothing else. *)
Lemma full_plain es v out : full es = Ok (v, out) -> plain (map fst es) = Ok (v, map fst out).
Proof.
  revert v out. induction es as [|e es IH] using rev_ind; intros v out R.
  - unfold full_session in R. unfold session. destruct (viewer_new _); cbn [bind full_run viewer_run map] in *; try discriminate. now injection R as <- <-.
  - rewrite full_snoc in R. rewrite map_app. cbn [map]. rewrite session_snoc. destruct (full es) as [[v0 o0]| |]; cbn [bind] in R; try discriminate.
    rewrite (IH v0 o0 eq_refl). cbn [bind]. unfold full_step in R. destruct (match fst e with VeRedraw _ => panel_drawn v0 (snd e) | _ => Ok None end); cbn [bind] in R; try discriminate.
    destruct (viewer_step E atan2 scenes v0 (fst e)) as [[v1 s]| |]; cbn [bind] in *; try discriminate. injection R as <- <-. rewrite map_app. destruct s; reflexivity.
Qed.
Lemma not_oof s samples bu vs m w h : draw_layer s samples bu vs m w h <> Oof.
Proof.
  unfold draw_layer. cbv zeta. unfold display_max. destruct (fltb _ _); cbn [bind]; [|discriminate]. unfold round_up, u64_sub, u64_add.
  repeat (match goal with |- context [if ?b then Ok _ else Panic] => destruct b; cbn [bind] end); discriminate.
Qed.
Lemma draw_panic s samples bu vs m w h : draw_layer (snapshot_of s) samples bu vs m w h = Panic <-> bar_heights s = Panic.
Proof. unfold draw_layer, bar_heights. cbv zeta. destruct (display_max (snapshot_of s)); cbn [bind]; split; congruence || discriminate. Qed.

(** A session crashes exactly if at some redraw the panel is shown and has no scale. *)
Theorem C99_crash : forall es, sane (map fst es) ->
  (full es = Panic <-> exists pre m a rest, es = pre ++ (VeRedraw m, a) :: rest /\ stuck (map fst pre)) /\
  (full es <> Panic -> exists v out, full es = Ok (v, out) /\ plain (map fst es) = Ok (v, map fst out)).
Proof.
  intros es. induction es as [|[e a] es IH] using rev_ind; intros S.
  - destruct (all_inv E atan2 scenes start [] S) as (v & ss & R & _). unfold session in R. unfold full_session. destruct (viewer_new (Some start)) as [v0| |] eqn:Ev; cbn [bind viewer_run] in R; try discriminate.
    cbn [bind full_run]. split.
    + split; [discriminate|]. intros (pre & m & b & rest & Eq & _). destruct pre; discriminate.
    + intros _. exists v0, []. split; [reflexivity|]. cbn [map]. unfold session. rewrite Ev. reflexivity.
  - rewrite map_app in S. cbn [map fst] in S. pose proof (sane_snoc _ _ _ _ S) as S0. destruct (IH S0) as [IH1 IH2].
    destruct (all_inv E atan2 scenes start _ S) as (v2 & ss2 & R2 & _). rewrite session_snoc in R2.
    rewrite full_snoc. destruct (full es) as [[v0 o0]| |] eqn:F0.
    + destruct (IH2 ltac:(discriminate)) as (v0' & o0' & Eq & Pl). injection Eq as <- <-. cbn [bind]. rewrite Pl in R2. cbn [bind] in R2.
      pose proof (all_flags _ _ _ Pl) as Fl. destruct (all_inv E atan2 scenes start _ S0) as (v1 & ss1 & R1 & I1). assert (v1 = v0) as -> by congruence.
      destruct I1 as [Ist _ _ _ _ _ _ _ _]. unfold full_step. cbn [fst snd].
      destruct (viewer_step E atan2 scenes v0 e) as [[v3 s3]| |] eqn:St; cbn [bind] in R2; try discriminate.
      assert (Cases : (match e with VeRedraw _ => panel_drawn v0 a | _ => Ok None end = Panic /\ (exists m, e = VeRedraw m) /\ stuck (map fst es)) \/
                      (exists p, match e with VeRedraw _ => panel_drawn v0 a | _ => Ok None end = Ok p) /\ ((exists m, e = VeRedraw m) -> ~ stuck (map fst es))).
      { destruct e as [| | | | | | | |m| |]; try (right; split; [eexists; reflexivity|intros (? & ?); discriminate]). unfold panel_drawn. destruct Fl as (Fl & _).
        destruct (vw_stats_shown v0).
        - match goal with |- context [draw_layer ?x1 ?x2 ?x3 ?x4 ?x5 ?x6 ?x7] => pose proof (not_oof x1 x2 x3 x4 x5 x6 x7) as No; pose proof (draw_panic (vw_stats v0) x2 x3 x4 x5 x6 x7) as Dp; destruct (draw_layer x1 x2 x3 x4 x5 x6 x7) end; cbn [bind].
          + right. split; [eauto|]. intros _ (_ & s & Es & Bh). assert (s = vw_stats v0) as -> by congruence. apply Dp in Bh. discriminate.
          + left. split; [reflexivity|]. split; [eauto|]. split; [now apply negb_true_iff; symmetry|]. exists (vw_stats v0). split; [exact Ist|]. now apply Dp.
          + congruence.
        - right. split; [eauto|]. intros _ (T & _). rewrite T in Fl. discriminate. }
      destruct Cases as [(P & (m & ->) & Sk)|((p & P) & Nk)]; rewrite P; cbn [bind].
      * split; [|intros N; now elim N]. split; [|reflexivity]. intros _. exists es, m, a, []. auto.
      * split.
        -- split; [discriminate|]. intros (pre & m & b & rest & Eq & Sk). destruct rest as [|y rest] using rev_ind.
           ++ apply app_inj_tail in Eq as [<- Eq]. injection Eq as -> <-. destruct Nk; eauto.
           ++ clear IHrest. rewrite app_comm_cons, app_assoc in Eq. apply app_inj_tail in Eq as [Eq _]. assert (X : full es = Panic); [|congruence].
              rewrite F0. apply IH1. exists pre, m, b, rest. auto.
        -- intros _. do 2 eexists. split; [reflexivity|]. rewrite map_app. cbn [map fst]. rewrite session_snoc, Pl. cbn [bind]. rewrite St. cbn [bind]. rewrite map_app. destruct s3; reflexivity.
    + cbn [bind]. split; [|intros N; now elim N]. split; [|reflexivity]. intros _. destruct (proj1 IH1 eq_refl) as (pre & m & b & rest & -> & Sk).
      exists pre, m, b, (rest ++ [(e, a)]). split; [|exact Sk]. rewrite <- app_assoc. reflexivity.
    + exfalso. destruct (IH2 ltac:(discriminate)) as (? & ? & Eq & _). discriminate.
Qed.
Lemma method_eq z : 0 <= z < 3 -> aa_method z = method_of z.
Proof. intros H. assert (z = 0 \/ z = 1 \/ z = 2) as [->|[->| ->]] by lia; reflexivity. Qed.
(** Each frame has the panel unless S was pressed an odd number of times, and this panel tells of the frames before. *)
Theorem C99_frame : forall es m a v out, sane (map fst (es ++ [(VeRedraw m, a)])) -> window_side (su_width a) -> window_side (su_height a) ->
  full (es ++ [(VeRedraw m, a)]) = Ok (v, out) ->
  let before := map fst es in let ops := stats_ops before in
  exists out0 sh p, out = out0 ++ [(sh, p)] /\
  (toggled is_stats before = true -> p = None) /\
  (toggled is_stats before = false -> (exists z, In z (since_clear ops) /\ 0 < z) \/ samples_of ops = [] ->
   exists st scale items, stats_run stats_new ops = Ok st /\ display_max (snapshot_of st) = Ok scale /\ p = Some items /\
     (apart (B2R scale) ->
      Forall2 shows items (panel (snapshot_of st) (lastn 100 (samples_of ops)) (if toggled is_complexity before then su_counts a else None)
        (negb (toggled is_vsync before)) (method_of (aa_steps false before mod 3)) (su_width a) (su_height a) (B2R scale)))).
Proof.
  intros es m a v out S Hw Hh R before ops. rewrite map_app in S. cbn [map fst] in S. pose proof (sane_snoc _ _ _ _ S) as S0. fold before in S, S0.
  rewrite full_snoc in R. destruct (full es) as [[v0 o0]| |] eqn:F0; cbn [bind] in R; try discriminate.
  pose proof (full_plain _ _ _ F0) as Pl. fold before in Pl. pose proof (all_flags _ _ _ Pl) as (Fl1 & Fl2 & Fl3).
  destruct (all_inv E atan2 scenes start _ S0) as (v1 & ss1 & R1 & I1). assert (v1 = v0) as -> by congruence. destruct I1 as [Ist _ _ _ Iaa _ _ _ _]. fold ops in Ist.
  unfold full_step in R. cbn [fst snd] in R. destruct (panel_drawn v0 a) as [p| |] eqn:Pd; cbn [bind] in R; try discriminate. cbn [viewer_step] in R.
  destruct (on_redraw scenes v0 m) as [[v2 s2]| |]; cbn [bind] in R; try discriminate. injection R as <- <-. exists o0, s2, p. split; [reflexivity|].
  unfold panel_drawn in Pd. rewrite Fl1 in Pd. split; intros T; rewrite T in Pd; cbn [negb] in Pd; [congruence|]. intros Pos.
  destruct (mod_again _ _ 3 ltac:(lia) Iaa) as [_ Ea]. rewrite Ea, method_eq, Fl2, Fl3 in Pd by (apply Z.mod_pos_bound; lia).
  destruct (C98_run ops (vw_stats v0) (if toggled is_complexity before then su_counts a else None) (negb (toggled is_vsync before)) (method_of (aa_steps false before mod 3)) (su_width a) (su_height a) (stats_ops_ok _ _ _ S0) Ist Hw Hh) as [_ C].
  match type of Pd with context [draw_layer ?x1 ?x2 ?x3 ?x4 ?x5 ?x6 ?x7] => destruct (draw_layer x1 x2 x3 x4 x5 x6 x7) as [items| |] eqn:Dl end; cbn [bind] in Pd; try discriminate.
  apply Ok_inj in Pd. subst p.
  cbv zeta in C. destruct (C ltac:(discriminate) Pos) as (scale & items' & Es & Ei & Sh). apply Ok_inj in Ei. subst items'.
  exists (vw_stats v0), scale, items. auto.
Qed.
End Proofs.
(** 99 frames of 0.1 ms, one of 10 ms, and another frame: a crash. *)
Definition hiccup : list (viewer_event * surroundings) :=
  let a := mkAround 1280 720 None in repeat (VeRedraw 100, a) 99 ++ [(VeRedraw 10000, a); (VeRedraw 100, a)].
Theorem C99_refuted : forall E atan2, PropViewer.sane 1 0 (map fst hiccup) /\ full_session E atan2 1 0 hiccup = Panic.
Proof.
  intros E atan2. assert (S : PropViewer.sane 1 0 (map fst hiccup)).
  { split; [lia|]. split; [cbn; lia|]. intros m Hin. apply in_map_iff in Hin as ([e a] & Ee & Hin). cbn [fst] in Ee. subst e. unfold hiccup in Hin. cbv zeta in Hin.
    apply in_app_or in Hin as [Hin|[X|[X|[]]]]; [apply repeat_spec in Hin as X| |]; assert (m = 100 \/ m = 10000) by (injection X; auto); lia. }
  split; [exact S|]. apply C99_crash; [exact S|]. exists (removelast hiccup), 100, (mkAround 1280 720 None), []. split; [reflexivity|].
  split; [vm_compute; reflexivity|]. eexists. split; [vm_compute; reflexivity|]. vm_compute. reflexivity.
Qed.
(** The panel is shown: S twice, a frame of 16 ms, the next frame. *)
Example C99_applies : forall E atan2, let a := mkAround 1280 720 None in let es := [(VeKey KStats, a); (VeKey KStats, a); (VeRedraw 16000, a)] in
  PropViewer.sane 1 0 (map fst (es ++ [(VeRedraw 17000, a)])) /\ toggled is_stats (map fst es) = false /\ In 16000 (since_clear (stats_ops (map fst es))) /\
  exists v out, full_session E atan2 1 0 (es ++ [(VeRedraw 17000, a)]) = Ok (v, out).
Proof.
  intros E atan2 a es. assert (S : PropViewer.sane 1 0 (map fst (es ++ [(VeRedraw 17000, a)]))).
  { split; [lia|]. split; [cbn; lia|]. intros m Hin. cbn in Hin. destruct Hin as [X|[X|[X|[X|[]]]]]; try discriminate; injection X as <-; lia. }
  split; [exact S|]. split; [reflexivity|]. split; [vm_compute; tauto|].
  destruct (C99_crash E atan2 1 0 _ S) as [A B]. destruct B as (v & out & R & _); [|eauto]. rewrite A. intros (pre & m & b & rest & Eq & (T & s & Rs & Bh)).
  assert (Hc : stats_ops (map fst pre) = [] \/ stats_ops (map fst pre) = [OpSample 16000]).
  { destruct pre as [|x [|y [|z [|t [|]]]]]; cbn in Eq; try (injection Eq; intros; subst; cbn; auto); try discriminate. }
  assert (X : forall ops, ops = [] \/ ops = [OpSample 16000] ->
    match stats_run stats_new ops with Ok s => match bar_heights s with Panic => false | _ => true end | _ => true end = true).
  { intros ops [->| ->]; vm_compute; reflexivity. }
  apply X in Hc. rewrite Rs, Bh in Hc. discriminate.
Qed.
