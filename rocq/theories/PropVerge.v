(** Where C51, C71, C73 and C74 fail: exactly, or how closely. *)
From Coq Require Import ZArith Bool List Lia Reals Lra.
From Flocq Require Import Core Mult_error BinarySingleNaN.
From Verif Require Import F64 F64Facts Kurbo Value Animated Schema Import TimelineSpec TimelineFacts ImportSpec ImportFacts3 ImportFacts4 PropImport2
  Stats Viewer PropStats PropTouch PropViewer PropSwitch Player PropPlayer GeometrySpec PropGeometry PropStar PropCamera PropPinch PropFingers PropGrip PropValue Examples.
Import ListNotations.
Close Scope string_scope.
Open Scope list_scope.
Open Scope Z_scope.

(** ** C51: both components follow the handles of the last one *)
Theorem C51_exact : forall E ks w i k l frame e0 e1, 
  keyframes_read point_of ks w -> in_order ks -> moderate_keyframes ks ->
  nth_error ks i = Some k -> nth_error ks (S i) = Some l -> is_finite frame = true -> between k l frame -> ~ TimelineSpec.held k ->
  easings k = 2%nat -> easing_at (kf_b k) 0 e0 -> easing_at (kf_b k) 1 e1 ->
  let p := eval E w frame in let a := point_of (kf_value k) in let b := point_of (kf_value l) in let t := progress k l frame in
  px p = tween E (px a) (px b) t e1 /\ py p = tween E (py a) (py b) t e1 /\
  (px p = tween E (px a) (px b) t e0 <-> tween E (px a) (px b) t e0 = tween E (px a) (px b) t e1).
Proof.
  intros E ks w i k l frame e0 e1 R O M Hk Hl Ff Bt Nh He E0 E1 p a b t.
  destruct (fo_between _ _ _ _ _ (keyframes_follow E point_of ks w dflt R O M) i k l frame Ff Hk Hl Bt Nh) as (e' & Ve & Ev).
  change (eval_or E w frame dflt) with p in Ev. unfold vector_easing in Ve. rewrite He in Ve. cbn in Ve. rewrite (easing_at_fun _ _ _ _ Ve E1) in Ev.
  assert (X : px p = tween E (px a) (px b) t e1) by (rewrite Ev; reflexivity). split; [exact X|]. split; [rewrite Ev; reflexivity|]. rewrite X. split; intros H; symmetry; exact H.
Qed.

(** ** C74: without scenes the viewer crashes at the first redraw *)
Lemma no_redraw E atan2 n m es : (forall x, ~ In (VeRedraw x) es) -> forall v, viewer_run E atan2 n v es = viewer_run E atan2 m v es.
Proof.
  induction es as [|e es IH]; intros N v; [reflexivity|]. cbn [viewer_run].
  assert (S : viewer_step E atan2 n v e = viewer_step E atan2 m v e) by (destruct e; try reflexivity; match goal with |- context [VeRedraw ?x] => elim (N x); now left end).
  rewrite S. destruct (viewer_step E atan2 m v e) as [[v1 s]| |]; cbn [bind]; [|reflexivity|reflexivity]. rewrite IH; [reflexivity|]. intros x Hx. elim (N x). now right.
Qed.
Theorem C74_exact : forall E atan2 start es, sane 1 start es ->
  (session E atan2 0 start es = Panic <-> exists m, In (VeRedraw m) es).
Proof.
  intros E atan2 start es S.
  assert (Ok1 : forall a, (exists b, es = a ++ b) -> (forall x, ~ In (VeRedraw x) a) -> exists v ss, session E atan2 0 start a = Ok (v, ss)).
  { intros a (b & ->) N. assert (Sa : sane 1 start a).
    { destruct S as (S1 & S2 & S3). rewrite app_length in S2. split; [exact S1|]. split; [lia|]. intros m Hm. apply S3, in_or_app. now left. }
    destruct (C74_runs E atan2 1 start a Sa) as (v & ss & R & _). exists v, ss. rewrite <- R. unfold session. destruct (viewer_new (Some start)) as [v0| |]; cbn [bind]; [|reflexivity|reflexivity]. now apply no_redraw. }
  split.
  - intros P. destruct (existsb (fun e => match e with VeRedraw _ => true | _ => false end) es) eqn:X.
    + apply existsb_exists in X as (e & He & X). destruct e; try discriminate X. eauto.
    + exfalso. destruct (Ok1 es) as (v & ss & R); [exists []; now rewrite app_nil_r| |congruence].
      intros x Hx. assert (existsb (fun e => match e with VeRedraw _ => true | _ => false end) es = true) by (apply existsb_exists; eauto). congruence.
  - intros (m & Hm).
    assert (First : forall l, In (VeRedraw m) l -> exists a x b, l = a ++ VeRedraw x :: b /\ forall y, ~ In (VeRedraw y) a).
    { induction l as [|e l IH]; [intros []|]. intros Hl. destruct e as [| | | | | | | |x| |]; try (destruct Hl as [Hl|Hl]; [discriminate Hl|]; destruct (IH Hl) as (a & x & c & -> & N); eexists (_ :: a), x, c; split; [reflexivity|]; intros y [Hy|Hy]; [discriminate Hy|exact (N y Hy)]).
      exists [], x, l. split; [reflexivity|]. intros y []. }
    destruct (First es Hm) as (a & x & b & -> & N). destruct (Ok1 a ltac:(eauto) N) as (v & ss & R). unfold session in *. destruct (viewer_new (Some start)) as [v0| |]; cbn [bind] in *; try discriminate.
    rewrite run_app, R. cbn [bind viewer_run viewer_step]. assert (P : on_redraw 0 v x = Panic) by reflexivity. rewrite P. reflexivity.
Qed.
Example C74_exact_applies : sane 1 0 [VeKey KRight; VeRedraw 5; VeWait] /\ exists m, In (VeRedraw m) [VeKey KRight; VeRedraw 5; VeWait].
Proof. split; [|exists 5; cbn; auto]. split; [lia|]. split; [cbn; lia|]. intros m [H|[H|[H|[]]]]; try discriminate. injection H as <-. lia. Qed.

Open Scope R_scope.
(** ** C71: the end is only reached by what is nearly there *)
Theorem C71_close : forall c elapsed, clock c elapsed ->
  let period := rnd (B2R (co_out c) - B2R (co_in c)) in
  exists k, (0 <= k)%Z /\ let left := rnd (B2R elapsed * B2R (co_frame_rate c)) - IZR k * period in
    0 <= left < period /\
    (B2R (playback_frame c elapsed) = B2R (co_out c) -> B2R (co_out c) - (left + B2R (co_in c)) <= u52 * (Rabs (left + B2R (co_in c)) + 1)) /\
    (B2R (playback_frame c elapsed) = B2R (co_out c) <-> rnd (left + B2R (co_in c)) = B2R (co_out c)) /\
    (B2R (playback_frame c elapsed) <> B2R (co_out c) -> B2R (co_in c) <= B2R (playback_frame c elapsed) < B2R (co_out c)).
Proof.
  intros c elapsed K period. destruct (player_split c elapsed K) as (r & k & Hk & Er & Rr & Le & Ef & Ff). fold period in Er, Rr. exists k. split; [exact Hk|]. cbv zeta. rewrite <- Er.
  split; [exact Rr|]. split; [|split].
  - intros Q. rewrite <- Q, Ef. pose proof (rnd_error (B2R r + B2R (co_in c))) as Er'. apply Rabs_le_inv in Er'. lra.
  - rewrite Ef. reflexivity.
  - destruct (C71_loops c elapsed K) as (_ & _ & B1 & B2). intros N. lra.
Qed.

(** ** C73: what the zoom of two fingers is *)
Definition together (p q : point) : Prop := real_point p = real_point q.
Lemma mean_same x y : fin x -> fin y -> Rabs (B2R x) <= 16384 -> B2R y = B2R x -> B2R (mean [x; y]) = B2R x /\ fin (mean [x; y]).
Proof.
  intros Fx Fy Bx Exy. pose proof big_range as BR. unfold mean. cbn [fold_left List.length].
  assert (H : B2R (fdiv f1 (f_of_Z (Z.of_nat 2))) = / 2 /\ fin (fdiv f1 (f_of_Z (Z.of_nat 2)))).
  { split; [|vm_compute; reflexivity]. rewrite <- SF2R_B2SF. replace (B2SF _) with (SpecFloat.S754_finite false 4503599627370496 (-53)) by (vm_compute; reflexivity).
    cbn [SF2R cond_Zopp]. unfold F2R. cbn [Fnum Fexp]. change (bpow radix2 (-53)) with (/ IZR 9007199254740992). lra. }
  destruct H as [Hh Fh].
  destruct (fadd_R f0 x eq_refl Fx) as [E1 F1]; [rewrite f0_R, Rplus_0_l; lra|]. rewrite f0_R, Rplus_0_l, rnd_f64 in E1.
  assert (T : B2R (fadd f0 x) + B2R y = 2 * B2R x) by (rewrite E1, Exy; ring).
  destruct (fadd_R (fadd f0 x) y F1 Fy) as [E2 F2]; [rewrite T, Rabs_mult, (Rabs_pos_eq 2) by lra; lra|].
  rewrite T in E2. assert (G : rnd (2 * B2R x) = 2 * B2R x).
  { apply round_generic; [typeclasses eauto|]. replace (2 * B2R x) with (B2R x * bpow radix2 1) by (cbn; ring).
    apply (mult_bpow_pos_exact_FLT radix2 (-1074) 53); [apply format_f64|lia]. }
  rewrite G in E2. destruct (fmul_R (fadd (fadd f0 x) y) (fdiv f1 (f_of_Z (Z.of_nat 2))) F2 Fh) as [E3 F3]; rewrite ?E2, ?Hh in *.
  - replace (2 * B2R x * / 2) with (B2R x) by field. lra.
  - split; [|exact F3]. rewrite E3. replace (2 * B2R x * / 2) with (B2R x) by field. apply rnd_f64.
Qed.
Lemma spread_together E atan2 i j p q : keen E atan2 -> (forall x y, fin x -> fin y -> B2R x = 0 -> B2R y = 0 -> B2R (x_hypot E x y) = 0) ->
  on_pad p -> on_pad q -> together p q -> B2R (spread E [(i, p); (j, q)]) = 0 /\ fin (spread E [(i, p); (j, q)]).
Proof.
  intros K Z (Fpx & Fpy & Bpx & Bpy) (Fqx & Fqy & Bqx & Bqy) T. unfold together, real_point in T. cbn [real_point fst snd] in *.
  assert (Tx : B2R (px q) = B2R (px p)) by (symmetry; exact (f_equal fst T)). assert (Ty : B2R (py q) = B2R (py p)) by (symmetry; exact (f_equal snd T)).
  unfold spread. cbn [map snd]. set (l := [(i, p); (j, q)]).
  destruct (mean_same (px p) (px q) Fpx Fqx ltac:(lra) Tx) as [Mx Fx]. destruct (mean_same (py p) (py q) Fpy Fqy ltac:(lra) Ty) as [My Fy].
  change (mean [px p; px q]) with (px (centre l)) in Mx, Fx. change (mean [py p; py q]) with (py (centre l)) in My, Fy.
  assert (D : forall a b : f64, fin a -> fin b -> B2R a = B2R b -> B2R (fsub a b) = 0 /\ fin (fsub a b)).
  { intros a b Fa Fb Eab. destruct (fsub_R a b Fa Fb) as [Es Fs]; [rewrite Eab, Rminus_eq_0, Rabs_R0; pose proof big_range; lra|]. rewrite Eab, Rminus_eq_0 in Es. split; [|exact Fs]. rewrite Es. apply rnd_0. }
  destruct (D _ _ Fx Fpx Mx) as [D1 G1]. destruct (D _ _ Fy Fpy My) as [D2 G2].
  destruct (D (px (centre l)) (px q) Fx Fqx ltac:(congruence)) as [D3 G3]. destruct (D (py (centre l)) (py q) Fy Fqy ltac:(congruence)) as [D4 G4].
  assert (W : forall x y : f64, B2R x = 0 -> B2R y = 0 -> bounded_by 16384 (B2R x, B2R y)) by (intros x y -> ->; split; cbn; rewrite Rabs_R0; lra).
  pose proof (proj1 (kn_hypot _ _ K _ _ G1 G2 (W _ _ D1 D2))) as H1. pose proof (proj1 (kn_hypot _ _ K _ _ G3 G4 (W _ _ D3 D4))) as H2.
  pose proof (Z _ _ G1 G2 D1 D2) as Z1. pose proof (Z _ _ G3 G4 D3 D4) as Z2.
  destruct (mean_same _ _ H1 H2) as [M F]; [rewrite Z1, Rabs_R0; lra|congruence|]. rewrite Z1 in M. split; [exact M|exact F].
Qed.
Lemma spread_apart E atan2 i j p q : keen E atan2 -> on_pad p -> on_pad q -> apart p q -> 7 <= B2R (spread E [(i, p); (j, q)]) /\ fin (spread E [(i, p); (j, q)]).
Proof.
  intros K P Q A. pose proof (two_facts E atan2 i j p q K P Q) as F. destruct (pf_spread _ _ _ _ F) as [Fs Es]. split; [|exact Fs].
  pose proof (half_len p q 8 ltac:(lra) ltac:(unfold apart in A; lra)) as L. pose proof (len_close _ _ _ (pf_ux _ _ _ _ F) (pf_uy _ _ _ _ F)) as C.
  apply Rabs_le_inv in Es, C. lra.
Qed.
Lemma spread_bound E atan2 i j p q : keen E atan2 -> on_pad p -> on_pad q -> Rabs (B2R (spread E [(i, p); (j, q)])) <= 20000.
Proof.
  intros K P Q. pose proof (two_facts E atan2 i j p q K P Q) as F. destruct (pf_spread _ _ _ _ F) as [Fs Es]. destruct (pf_bound _ _ _ _ F) as [B1 B2].
  assert (L : len (arm [(i, p); (j, q)] p) <= 12000).
  { unfold len, square. apply Rle_trans with (sqrt (12000 * 12000)); [|rewrite sqrt_square; lra]. apply sqrt_le_1_alt.
    assert (S : forall a, Rabs a <= 8001 -> a ^ 2 <= 64016001) by (intros a Ha; apply Rabs_le_inv in Ha; nra). pose proof (S _ B1). pose proof (S _ B2). lra. }
  pose proof (len_pos (arm [(i, p); (j, q)] p)) as LP. apply Rabs_le_inv in Es. apply Rabs_le. lra.
Qed.
Lemma zero_of (x : f64) : fin x -> B2R x = 0 -> exists s, x = B754_zero s.
Proof.
  intros F Z. destruct x as [s|s| |s m e Hb]; try discriminate F; [eauto|]. exfalso. cbn [B2R] in Z. apply eq_0_F2R in Z. destruct s; discriminate.
Qed.
Theorem C73_zoom : forall E atan2 moves h a b i j p1 p2 q1 q2, keen E atan2 ->
  (forall x y, fin x -> fin y -> B2R x = 0 -> B2R y = 0 -> B2R (x_hypot E x y) = 0) ->
  proper (moves ++ TvFrame :: h) -> changed (moves ++ TvFrame :: h) = false -> Forall (fun e => e <> TvFrame) moves ->
  down h [(i, p1); (j, p2)] -> down (moves ++ TvFrame :: h) [(i, q1); (j, q2)] ->
  report E atan2 h = Some a -> report E atan2 (moves ++ TvFrame :: h) = Some b ->
  on_pad p1 -> on_pad p2 -> on_pad q1 -> on_pad q2 -> together p1 p2 \/ apart p1 p2 -> together q1 q2 \/ apart q1 q2 ->
  (is_finite (mi_zoom b) = true <-> apart p1 p2) /\
  (mi_zoom b = B754_infinity false \/ mi_zoom b = B754_infinity true <-> together p1 p2 /\ apart q1 q2) /\
  (is_nan (mi_zoom b) = true <-> together p1 p2 /\ together q1 q2).
Proof.
  intros E atan2 moves h a b i j p1 p2 q1 q2 K Z P C NF Df Dg Ra Rb P1 P2 Q1 Q2 Hp Hq.
  destruct (C73_movement E atan2 moves h a b _ _ P C NF Df Dg Ra Rb) as (_ & Zm & _). cbn [List.length Nat.ltb Nat.leb] in Zm. rewrite Zm. clear Zm.
  assert (X : forall p q, apart p q -> together p q -> False).
  { intros p q A T. unfold apart, together in *. rewrite T in A. unfold square, vminus in A. cbn [fst snd] in A. lra. }
  assert (Y : forall s t : f64, fin s -> fin t -> B2R t = 0 -> 7 <= B2R s -> exists v, fdiv s t = B754_infinity v).
  { intros s t Fs Ft Et Ls. destruct (zero_of t Ft Et) as (v & ->). destruct s as [u|u| |u m e Hb]; try discriminate Fs; [cbn [B2R] in Ls; lra|]. eexists. reflexivity. }
  destruct Hp as [Tp|Ap], Hq as [Tq|Aq].
  - destruct (spread_together E atan2 i j p1 p2 K Z P1 P2 Tp) as [Sp Fp]. destruct (spread_together E atan2 i j q1 q2 K Z Q1 Q2 Tq) as [Sq Fq].
    destruct (zero_of _ Fp Sp) as (s & ->). destruct (zero_of _ Fq Sq) as (t & ->). replace (fdiv (B754_zero t) (B754_zero s)) with (B754_nan : f64) by reflexivity. 
    split; [split; [discriminate|intros A; destruct (X _ _ A Tp)]|]. split; [split; [intros [N|N]; discriminate|intros [_ A]; destruct (X _ _ A Tq)]|]. split; auto.
  - destruct (spread_together E atan2 i j p1 p2 K Z P1 P2 Tp) as [Sp Fp]. destruct (spread_apart E atan2 i j q1 q2 K Q1 Q2 Aq) as [Sq Fq].
    destruct (Y _ _ Fq Fp Sp Sq) as (v & ->). split; [split; [discriminate|intros A; destruct (X _ _ A Tp)]|]. split; [split; [auto|intros _; destruct v; auto]|].
    split; [discriminate|intros [_ T]; destruct (X _ _ Aq T)].
  - destruct (spread_apart E atan2 i j p1 p2 K P1 P2 Ap) as [Sp Fp]. pose proof (spread_bound E atan2 i j q1 q2 K Q1 Q2) as Bq.
    destruct (spread_together E atan2 i j q1 q2 K Z Q1 Q2 Tq) as [Sq Fq].
    destruct (fdiv_R _ (spread E [(i, p1); (j, p2)]) Fq) as [_ Fz]; [lra|unfold Rdiv; rewrite Sq, Rmult_0_l, Rabs_R0; apply bpow_ge_0|].
    split; [split; auto|]. split; [split; [intros [N|N]; rewrite N in Fz; discriminate|intros [T _]; destruct (X _ _ Ap T)]|].
    split; [intros N; destruct (fdiv _ _); discriminate|intros [T _]; destruct (X _ _ Ap T)].
  - destruct (spread_apart E atan2 i j p1 p2 K P1 P2 Ap) as [Sp Fp]. pose proof (spread_bound E atan2 i j q1 q2 K Q1 Q2) as Bq.
    destruct (spread_apart E atan2 i j q1 q2 K Q1 Q2 Aq) as [Sq Fq].
    destruct (fdiv_R _ (spread E [(i, p1); (j, p2)]) Fq) as [_ Fz]; [lra| |].
    { apply Rle_trans with 20000; [|pose proof big_range; lra]. unfold Rdiv. rewrite Rabs_mult, (Rabs_pos_eq (/ _)) by (left; apply Rinv_0_lt_compat; lra).
      apply Rle_trans with (20000 * 1); [|lra]. apply Rmult_le_compat; [apply Rabs_pos|left; apply Rinv_0_lt_compat; lra|exact Bq|]. rewrite <- Rinv_1. apply Rinv_le; lra. }
    split; [split; auto|]. split; [split; [intros [N|N]; rewrite N in Fz; discriminate|intros [T _]; destruct (X _ _ Ap T)]|].
    split; [intros N; destruct (fdiv _ _); discriminate|intros [T _]; destruct (X _ _ Ap T)].
Qed.
(** Lengths that are exact at zero; two fingers that meet, and part again. *)
Lemma E_keen_zero : forall x y, fin x -> fin y -> B2R x = 0 -> B2R y = 0 -> B2R (x_hypot E_keen x y) = 0.
Proof.
  intros x y _ _ Zx Zy. cbn [E_keen x_hypot]. rewrite Zx, Zy. replace (0 ^ 2 + 0 ^ 2) with 0 by ring. rewrite sqrt_0. unfold round39. rewrite Rmult_0_l.
  replace (ZnearestE 0) with 0%Z; [reflexivity|]. symmetry. apply (Znearest_imp _ 0 0). rewrite Rminus_0_r, Rabs_R0. lra.
Qed.
Definition f_touch (ph : phase) (i x : Z) := TvTouch (mkTouchEv ph i (at_z x 100)).
Example C73_zoom_applies : keen E_keen atan2_keen /\
  (forall x y, fin x -> fin y -> B2R x = 0 -> B2R y = 0 -> B2R (x_hypot E_keen x y) = 0) /\
  let h := [f_touch Started 2 300; f_touch Started 1 100] in let m := [f_touch Moved 2 100] in
  proper (m ++ TvFrame :: h) /\ changed (m ++ TvFrame :: h) = false /\ Forall (fun e => e <> TvFrame) m /\
  down h [(1%Z, at_z 100 100); (2%Z, at_z 300 100)] /\ down (m ++ TvFrame :: h) [(1%Z, at_z 100 100); (2%Z, at_z 100 100)] /\
  (exists a, report E_keen atan2_keen h = Some a) /\ (exists b, report E_keen atan2_keen (m ++ TvFrame :: h) = Some b) /\
  on_pad (at_z 100 100) /\ on_pad (at_z 300 100) /\ apart (at_z 100 100) (at_z 300 100) /\ together (at_z 100 100) (at_z 100 100).
Proof.
  split; [apply E_keen_ok|]. split; [exact E_keen_zero|]. cbv zeta.
  split; [intros t H; cbn [app] in H; repeat (destruct H as [H|H]; [try discriminate; injection H as <-; cbn [te_id]; lia|]); destruct H|].
  split; [reflexivity|]. split; [repeat constructor; discriminate|].
  split; [apply down_two; [lia|]; intros id; reflexivity|].
  split; [apply down_two; [lia|]; intros id; cbn [app finger f_touch te_id te_phase te_pos]; destruct (2 =? id)%Z eqn:E2; [apply Z.eqb_eq in E2; subst id; reflexivity|]; destruct (1 =? id)%Z eqn:E1; [apply Z.eqb_eq in E1; subst id; reflexivity|reflexivity]|].
  split; [eexists; reflexivity|]. split; [eexists; reflexivity|]. split; [apply pad_z; lia|]. split; [apply pad_z; lia|]. split; [|reflexivity].
  unfold apart. rewrite !real_z by lia. unfold square, vminus. cbn [fst snd]. lra.
Qed.

(** ** C28: what says that it is fixed has no keyframes, and is the same in every frame *)
Definition moving {T} (v : value T) : Prop := exists a, v = VAnimated a.
Definition place_moves (p : position) : Prop := match p with PosValue v => moving v | PosSplit x y => moving x \/ moving y end.
Definition stops_move (s : stops_v) : Prop := exists a, s = CsAnimated a.
Definition brush_moves (b : a_brush) : Prop :=
  match b with ABSolid c => moving c | ABGradient g => moving (ag_start g) \/ moving (ag_end g) \/ stops_move (ag_stops g) end.
Lemma fixed_iff {T} (v : value T) : is_fixed v = true <-> ~ moving v.
Proof. destruct v; cbn; split; try discriminate; auto; [intros _ [a H]; discriminate|intros H; elim H; eexists; reflexivity]. Qed.
Lemma place_iff p : position_is_fixed p = true <-> ~ place_moves p.
Proof. destruct p; cbn [position_is_fixed place_moves]; rewrite ?andb_true_iff, !fixed_iff; tauto. Qed.
Lemma stops_iff s : stops_is_fixed s = true <-> ~ stops_move s.
Proof. destruct s; cbn; split; try discriminate; auto; [intros _ [a H]; discriminate|intros H; elim H; eexists; reflexivity]. Qed.
Theorem C28_fixed :
  (forall e, a_ellipse_is_fixed e = true <-> ~ (moving (ael_position e) \/ moving (ael_size e))) /\
  (forall r, a_rect_is_fixed r = true <-> ~ (moving (arc_position r) \/ moving (arc_size r) \/ moving (arc_radius r))) /\
  (forall s, a_star_is_fixed s = true <-> ~ (moving (asr_position s) \/ moving (asr_inner_radius s) \/ moving (asr_inner_roundness s) \/
     moving (asr_outer_radius s) \/ moving (asr_outer_roundness s) \/ moving (asr_rotation s) \/ moving (asr_points s))) /\
  (forall t, a_transform_is_fixed t = true <-> ~ (moving (at_anchor t) \/ place_moves (at_position t) \/ moving (at_rotation t) \/
     moving (at_scale t) \/ moving (at_skew t) \/ moving (at_skew_angle t))) /\
  (forall s, a_stroke_is_fixed s = true <-> ~ moving (as_width s)) /\
  (forall r, a_repeater_is_fixed r = true <-> ~ (moving (ar_copies r) \/ moving (ar_offset r) \/ moving (ar_anchor r) \/ moving (ar_position r) \/
     moving (ar_rotation r) \/ moving (ar_scale r) \/ moving (ar_start_opacity r) \/ moving (ar_end_opacity r))) /\
  (forall t, a_trim_is_fixed t = true <-> ~ (moving (atr_start t) \/ moving (atr_end t) \/ moving (atr_offset t))) /\
  (forall b, a_brush_is_fixed b = true <-> ~ brush_moves b).
Proof.
  repeat apply conj.
  - intros e. unfold a_ellipse_is_fixed. rewrite ?andb_true_iff, !fixed_iff. tauto.
  - intros e. unfold a_rect_is_fixed. rewrite ?andb_true_iff, !fixed_iff. tauto.
  - intros e. unfold a_star_is_fixed. rewrite ?andb_true_iff, !fixed_iff. tauto.
  - intros e. unfold a_transform_is_fixed. rewrite ?andb_true_iff, !fixed_iff, place_iff. tauto.
  - intros e. unfold a_stroke_is_fixed. apply fixed_iff.
  - intros e. unfold a_repeater_is_fixed. rewrite ?andb_true_iff, !fixed_iff. tauto.
  - intros e. unfold a_trim_is_fixed. rewrite ?andb_true_iff, !fixed_iff. tauto.
  - intros [c|g]; cbn [a_brush_is_fixed brush_moves]; [apply fixed_iff|]. unfold a_gradient_is_fixed. rewrite ?andb_true_iff, !fixed_iff, stops_iff. tauto.
Qed.
Theorem C28_same : forall E frame frame',
  (forall e, a_ellipse_is_fixed e = true -> a_ellipse_eval E e frame = a_ellipse_eval E e frame') /\
  (forall r, a_rect_is_fixed r = true -> a_rect_eval E r frame = a_rect_eval E r frame') /\
  (forall s, a_star_is_fixed s = true -> a_star_eval E s frame = a_star_eval E s frame') /\
  (forall t, a_transform_is_fixed t = true -> a_transform_eval E t frame = a_transform_eval E t frame') /\
  (forall s, a_stroke_is_fixed s = true -> a_stroke_eval E s frame = a_stroke_eval E s frame') /\
  (forall r, a_repeater_is_fixed r = true -> a_repeater_eval E r frame = a_repeater_eval E r frame') /\
  (forall t, a_trim_is_fixed t = true -> a_trim_eval E t frame = a_trim_eval E t frame') /\
  (forall b alpha, a_brush_is_fixed b = true -> a_brush_eval E b alpha frame = a_brush_eval E b alpha frame').
Proof.
  intros E frame frame'. repeat apply conj.
  - intros [d p s] F. unfold a_ellipse_is_fixed in F. cbn in F. fixed. reflexivity.
  - intros [d p s r] F. unfold a_rect_is_fixed in F. cbn in F. fixed. reflexivity.
  - intros [pg di a b c d e f g] F. unfold a_star_is_fixed in F. cbn in F. fixed. reflexivity.
  - intros [an po ro sc sk sa] F. unfold a_transform_is_fixed in F. cbn in F. destruct po; cbn [position_is_fixed] in F; fixed; reflexivity.
  - intros [w j m c] F. unfold a_stroke_is_fixed in F. cbn [as_width] in F. fixed. reflexivity.
  - intros [a b c d e f g h] F. unfold a_repeater_is_fixed in F. cbn in F. fixed. reflexivity.
  - intros [a b c] F. unfold a_trim_is_fixed in F. cbn in F. fixed. reflexivity.
  - intros [c|[ra st en cs]] alpha F; [cbn [a_brush_is_fixed] in F; fixed; reflexivity|]. cbn [a_brush_is_fixed] in F. unfold a_gradient_is_fixed in F. cbn in F. fixed. destruct cs; [reflexivity|discriminate].
Qed.
Example C28_fixed_applies :
  let still := mkARect false (VFixed (mkPoint f0 f1)) (VFixed (mkSize f1 f1)) (VFixed f0) in
  let slides := mkARect false (VFixed (mkPoint f0 f1)) (VFixed (mkSize f1 f1)) (VAnimated (mkAnim [] [f0; f1])) in
  a_rect_is_fixed still = true /\ ~ moving (arc_radius still) /\ a_rect_is_fixed slides = false /\ moving (arc_radius slides).
Proof. cbv zeta. split; [reflexivity|]. split; [intros [a H]; discriminate|]. split; [reflexivity|]. eexists. reflexivity. Qed.
