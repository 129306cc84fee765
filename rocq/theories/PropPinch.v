(** C86: the figures of touch gestures, in real numbers. *)
From Coq Require Import ZArith Bool List Lia Reals Lra Sorted.
From Flocq Require Import Core BinarySingleNaN.
From Verif Require Import F64 F64Facts Kurbo Value Animated Stats Viewer PropTouch PropGeometry PropStar PropEasing PropFigures Examples.
Import ListNotations.
Close Scope string_scope.
Open Scope list_scope.
Open Scope R_scope.

(** ** Specification *)
(** Up to 32 fingers on a screen of up to a million pixels. *)
Definition on_screen (l : list (Z * point)) : Prop :=
  (List.length l <= 32)%nat /\ forall id p, In (id, p) l -> (fin (px p) /\ Rabs (B2R (px p)) <= 1048576) /\ (fin (py p) /\ Rabs (B2R (py p)) <= 1048576).
Definition rsum (xs : list R) : R := fold_right Rplus 0 xs.
Definition rmean (xs : list R) : R := rsum xs / INR (List.length xs).
(** The middle of the fingers, and their mean distance from it: along the
    screen, across it, and as the crow flies. *)
Definition mid_x (l : list (Z * point)) : R := rmean (map (fun e => B2R (px (snd e))) l).
Definition mid_y (l : list (Z * point)) : R := rmean (map (fun e => B2R (py (snd e))) l).
Definition width_of (l : list (Z * point)) : R := rmean (map (fun e => Rabs (mid_x l - B2R (px (snd e)))) l).
Definition height_of (l : list (Z * point)) : R := rmean (map (fun e => Rabs (mid_y l - B2R (py (snd e)))) l).
Definition spread_of (l : list (Z * point)) : R :=
  rmean (map (fun e => sqrt ((mid_x l - B2R (px (snd e))) ^ 2 + (mid_y l - B2R (py (snd e))) ^ 2)) l).
(** [x] is the quotient of [a] and [b], up to [a / 10^5 + 10^-5] (for [b] of at least one pixel). *)
Definition quotient (x : f64) (a b : R) : Prop := 1 <= b -> fin x /\ Rabs (B2R x - a / b) <= (a / b + 1) / 100000.
(** A hypotenuse up to 10^-7. *)
Definition pythagoras (E : Ext) : Prop := forall x y, fin x -> fin y -> Rabs (B2R x) <= 4194304 -> Rabs (B2R y) <= 4194304 ->
  approx (x_hypot E x y) (sqrt (B2R x ^ 2 + B2R y ^ 2)) (/ 10000000).
(** The fingers with which a gesture began: at the first frame since there are
    fingers down at the end of every frame. *)
Inductive began : list tev -> list (Z * point) -> Prop :=
| bg_first h l : down h l -> l <> [] -> Forall (fun e => e <> TvFrame) h -> began h l
| bg_again m h l : Forall (fun e => e <> TvFrame) m -> down (m ++ TvFrame :: h) l -> l <> [] -> down h [] -> began (m ++ TvFrame :: h) l
| bg_more m h l gs : Forall (fun e => e <> TvFrame) m -> down (m ++ TvFrame :: h) gs -> gs <> [] -> began h l -> began (m ++ TvFrame :: h) l.
(** Two fingers side by side, or one above the other, by more than three to one. *)
Definition beside (l : list (Z * point)) : Prop :=
  exists a b, l = [a; b] /\ 3 * Rabs (B2R (py (snd a)) - B2R (py (snd b))) + / 1000 <= Rabs (B2R (px (snd a)) - B2R (px (snd b))).
Definition stacked (l : list (Z * point)) : Prop :=
  exists a b, l = [a; b] /\ 3 * Rabs (B2R (px (snd a)) - B2R (px (snd b))) + / 1000 <= Rabs (B2R (py (snd a)) - B2R (py (snd b))).
(** Neither. *)
Definition oblique (l : list (Z * point)) : Prop :=
  forall a b, l = [a; b] -> let dx := Rabs (B2R (px (snd a)) - B2R (px (snd b))) in let dy := Rabs (B2R (py (snd a)) - B2R (py (snd b))) in
    dx + / 1000 <= 3 * dy /\ dy + / 1000 <= 3 * dx.

(** ** Means *)
Lemma rsum_bound xs B : 0 <= B -> (forall x, In x xs -> Rabs x <= B) -> Rabs (rsum xs) <= INR (List.length xs) * B.
Proof.
  intros HB. induction xs as [|x xs IH]; intros H; [cbn; rewrite Rabs_R0; lra|]. cbn [rsum fold_right List.length]. rewrite S_INR.
  apply Rle_trans with (1 := Rabs_triang _ _). specialize (H x (or_introl eq_refl)) as Hx. specialize (IH ltac:(intros; apply H; now right)). fold (rsum xs). lra.
Qed.
Lemma len_bound {A} (l : list A) : (List.length l <= 32)%nat -> 0 <= INR (List.length l) <= 32.
Proof. intros H. split; [apply pos_INR|]. replace 32 with (INR 32) by (cbn; lra). now apply le_INR. Qed.
(** partial sums: every addition adds its rounding error *)
Lemma sum_approx B d : 0 <= B <= 16777216 -> 0 <= d <= 1 -> forall xs rs, Forall2 (fun x r => approx x r d /\ Rabs r <= B) xs rs -> (List.length xs <= 32)%nat ->
  forall a ra n, approx a ra (INR n * (d + / 4000000)) -> Rabs ra <= INR n * B -> (n + List.length xs <= 32)%nat ->
  approx (fold_left fadd xs a) (ra + rsum rs) (INR (n + List.length xs) * (d + / 4000000)).
Proof.
  intros HB Hd xs rs F. induction F as [|x r xs rs [Hx Hr] F IH]; intros Len a ra n Ha Hra Hn; cbn [fold_left rsum fold_right List.length].
  - rewrite Nat.add_0_r, Rplus_0_r. exact Ha.
  - cbn [List.length] in Len, Hn. rewrite <- Nat.add_succ_comm. fold (rsum rs). replace (ra + (r + rsum rs)) with (ra + r + rsum rs) by ring.
    assert (N : 0 <= INR n <= 31) by (split; [apply pos_INR|replace 31 with (INR 31) by (cbn; lra); apply le_INR; lia]).
    assert (NB : INR n * B <= 31 * 16777216) by (apply Rmult_le_compat; lra).
    assert (Nd : INR n * (d + / 4000000) <= 31 * (1 + / 4000000)) by (apply Rmult_le_compat; lra).
    apply IH; [lia| | |lia].
    + rewrite S_INR. eapply (near_add a x _ _ (INR n * (d + / 4000000)) d (32 * 16777216)); [exact Ha|exact Hx|lra|lra|]. unfold u52. lra.
    + rewrite S_INR. apply Rle_trans with (1 := Rabs_triang _ _). lra.
Qed.
Lemma mean_approx B d xs rs : 0 <= B <= 16777216 -> 0 <= d <= / 1000 -> Forall2 (fun x r => approx x r d /\ Rabs r <= B) xs rs -> xs <> [] -> (List.length xs <= 32)%nat ->
  approx (mean xs) (rmean rs) (d + / 1000000) /\ Rabs (rmean rs) <= B.
Proof.
  intros HB Hd F Ne Len. assert (L : List.length xs = List.length rs) by (clear -F; induction F; cbn; congruence).
  assert (N1 : 1 <= INR (List.length xs)) by (replace 1 with (INR 1) by reflexivity; apply le_INR; destruct xs; [congruence|cbn; lia]).
  pose proof (len_bound xs Len) as [_ N2]. set (n := INR (List.length xs)) in *.
  assert (S : approx (fold_left fadd xs f0) (0 + rsum rs) (INR (0 + List.length xs) * (d + / 4000000))).
  { apply (sum_approx B d HB ltac:(lra) xs rs F Len f0 0 0%nat); [|cbn; rewrite Rabs_R0; lra|lia].
    split; [reflexivity|]. rewrite f0_R, Rminus_eq_0, Rabs_R0. cbn. lra. }
  rewrite Rplus_0_l in S. cbn [Nat.add] in S. fold n in S.
  assert (Sb : Rabs (rsum rs) <= n * B).
  { unfold n. rewrite L. apply rsum_bound; [lra|]. intros r Hr. clear -F Hr. induction F as [|x y xs rs [_ H] F IH]; cbn [In] in Hr; [destruct Hr|destruct Hr as [<-|Hr]; auto]. }
  assert (Rn : B2R (f_of_Z (Z.of_nat (List.length xs))) = n /\ fin (f_of_Z (Z.of_nat (List.length xs)))).
  { unfold n. rewrite INR_IZR_INZ. apply f_of_Z_R. lia. }
  destruct Rn as [Rn Fn]. set (fn := f_of_Z _) in *.
  assert (In1 : 0 < / n <= 1) by (split; [apply Rinv_0_lt_compat; lra|rewrite <- Rinv_1; apply Rinv_le_contravar; lra]).
  assert (D : approx (fdiv f1 fn) (/ n) (2 * u52)).
  { destruct (fdiv_R f1 fn eq_refl) as [E F1]; [rewrite Rn; lra|rewrite Rn, f1_R; unfold Rdiv; rewrite Rmult_1_l, Rabs_pos_eq by lra; pose proof big_range; lra|].
    split; [exact F1|]. rewrite E, Rn, f1_R. unfold Rdiv. rewrite Rmult_1_l. pose proof (rnd_error (/ n)) as R. rewrite (Rabs_pos_eq (/ n)) in R by lra.
    apply Rle_trans with (1 := R). unfold u52. lra. }
  assert (Q : Rabs (rmean rs) <= B).
  { unfold rmean. rewrite <- L. fold n. unfold Rdiv. rewrite Rabs_mult, (Rabs_pos_eq (/ n)) by lra. apply Rmult_le_reg_r with n; [lra|].
    rewrite Rmult_assoc, Rinv_l by lra. lra. }
  split; [|exact Q]. unfold mean, rmean. rewrite <- L. fold n. fold fn.
  assert (Nb : n * B <= 32 * 16777216) by (apply Rmult_le_compat; lra).
  assert (Nd : n * (d + / 4000000) <= 32 * (/ 1000 + / 4000000)) by (apply Rmult_le_compat; lra).
  destruct S as [Fs Es]. set (S := fold_left fadd xs f0) in *.
  assert (M : Rabs (B2R S) <= 32 * 16777216 + 1).
  { apply Rabs_le. apply Rabs_le_inv in Es, Sb. lra. }
  destruct D as [Fd Ed]. set (D := fdiv f1 fn) in *.
  assert (Ab : Rabs (B2R D) <= 2) by (apply Rabs_le; apply Rabs_le_inv in Ed; unfold u52 in *; lra).
  assert (P : Rabs (B2R S * B2R D) <= (32 * 16777216 + 1) * 2) by (rewrite Rabs_mult; apply Rmult_le_compat; auto using Rabs_pos).
  destruct (fmul_R S D Fs Fd) as [E F']; [pose proof big_range; lra|].
  split; [exact F'|]. rewrite E. pose proof (rnd_error (B2R S * B2R D)) as R.
  replace (rnd (B2R S * B2R D) - rsum rs / n) with ((rnd (B2R S * B2R D) - B2R S * B2R D) + (B2R S * (B2R D - / n) + (B2R S - rsum rs) * / n)) by (field; lra).
  apply Rle_trans with (1 := Rabs_triang _ _).
  assert (A1 : Rabs (B2R S * (B2R D - / n)) <= (32 * 16777216 + 1) * (2 * u52)) by (rewrite Rabs_mult; apply Rmult_le_compat; auto using Rabs_pos).
  assert (A2 : Rabs ((B2R S - rsum rs) * / n) <= d + / 4000000).
  { rewrite Rabs_mult, (Rabs_pos_eq (/ n)) by lra. apply Rmult_le_reg_r with n; [lra|]. rewrite Rmult_assoc, Rinv_l by lra. lra. }
  pose proof (Rabs_triang (B2R S * (B2R D - / n)) ((B2R S - rsum rs) * / n)) as T. unfold u52 in *. lra.
Qed.
Lemma Forall2_maps {A B C} (P : B -> C -> Prop) (f : A -> B) (g : A -> C) l : (forall x, In x l -> P (f x) (g x)) -> Forall2 P (map f l) (map g l).
Proof. induction l as [|x l IH]; intros H; cbn [map]; constructor; [apply H; now left|apply IH; intros; apply H; now right]. Qed.
Lemma centre_approx l : on_screen l -> l <> [] ->
  (approx (px (centre l)) (mid_x l) (/ 500000) /\ Rabs (mid_x l) <= 1048576) /\ (approx (py (centre l)) (mid_y l) (/ 500000) /\ Rabs (mid_y l) <= 1048576).
Proof.
  intros [Len O] Ne. unfold centre, mid_x, mid_y. cbn [px py].
  assert (Nm : forall B (f : Z * point -> B), map f l <> []) by (intros B f; destruct l; [congruence|discriminate]).
  split.
  - destruct (mean_approx 1048576 0 (map (fun e => px (snd e)) l) (map (fun e => B2R (px (snd e))) l)) as [A B]; [lra|lra| |apply Nm|now rewrite map_length|].
    + apply Forall2_maps. intros [id p] H. destruct (O id p H) as [[F B] _]. split; [apply (near_exact (px p) _ F eq_refl)|exact B].
    + split; [eapply near_weaken; [exact A|lra]|exact B].
  - destruct (mean_approx 1048576 0 (map (fun e => py (snd e)) l) (map (fun e => B2R (py (snd e))) l)) as [A B]; [lra|lra| |apply Nm|now rewrite map_length|].
    + apply Forall2_maps. intros [id p] H. destruct (O id p H) as [_ [F B]]. split; [apply (near_exact (py p) _ F eq_refl)|exact B].
    + split; [eapply near_weaken; [exact A|lra]|exact B].
Qed.
Lemma hyp_step a b c d : sqrt (a ^ 2 + b ^ 2) <= sqrt (c ^ 2 + d ^ 2) + (Rabs (a - c) + Rabs (b - d)).
Proof.
  set (H := sqrt (c ^ 2 + d ^ 2)). assert (P : 0 <= c ^ 2 + d ^ 2) by nra. assert (H0 : 0 <= H) by apply sqrt_pos.
  assert (HH : H * H = c ^ 2 + d ^ 2) by now apply sqrt_sqrt.
  pose proof (Rabs_pos (a - c)) as Pp. pose proof (Rabs_pos (b - d)) as Pq.
  assert (C : Rabs c <= H) by (apply Rsqr_incr_0; auto using Rabs_pos; rewrite <- Rsqr_abs; unfold Rsqr; rewrite HH; nra).
  assert (D : Rabs d <= H) by (apply Rsqr_incr_0; auto using Rabs_pos; rewrite <- Rsqr_abs; unfold Rsqr; rewrite HH; nra).
  rewrite <- (sqrt_square (H + (Rabs (a - c) + Rabs (b - d)))) by lra. apply sqrt_le_1_alt.
  set (p := Rabs (a - c)) in *. set (q := Rabs (b - d)) in *.
  assert (p * p = (a - c) * (a - c)) by (unfold p; rewrite <- Rabs_mult, Rabs_pos_eq; [reflexivity|apply Rle_0_sqr]).
  assert (q * q = (b - d) * (b - d)) by (unfold q; rewrite <- Rabs_mult, Rabs_pos_eq; [reflexivity|apply Rle_0_sqr]).
  assert (c * (a - c) <= H * p).
  { apply Rle_trans with (1 := Rle_abs _). rewrite Rabs_mult. fold p. apply Rmult_le_compat_r; assumption. }
  assert (d * (b - d) <= H * q).
  { apply Rle_trans with (1 := Rle_abs _). rewrite Rabs_mult. fold q. apply Rmult_le_compat_r; assumption. }
  assert (0 <= p * q) by now apply Rmult_le_pos. nra.
Qed.
Lemma hyp_close a b c d e : Rabs (a - c) + Rabs (b - d) <= e -> Rabs (sqrt (a ^ 2 + b ^ 2) - sqrt (c ^ 2 + d ^ 2)) <= e.
Proof.
  intros H. pose proof (hyp_step a b c d) as H1. pose proof (hyp_step c d a b) as H2.
  rewrite (Rabs_minus_sym c a), (Rabs_minus_sym d b) in H2. apply Rabs_le. lra.
Qed.
Lemma hyp_bound a b B : Rabs a <= B -> Rabs b <= B -> Rabs (sqrt (a ^ 2 + b ^ 2)) <= 2 * B.
Proof.
  intros Ha Hb. rewrite Rabs_pos_eq by apply sqrt_pos. pose proof (hyp_step a b 0 0) as H. rewrite !Rminus_0_r in H.
  replace (0 ^ 2 + 0 ^ 2) with 0 in H by ring. rewrite sqrt_0 in H. lra.
Qed.
(** one finger's distance from the centre *)
Lemma offset_approx c m p : approx c m (/ 500000) -> Rabs m <= 1048576 -> fin p -> Rabs (B2R p) <= 1048576 ->
  approx (fsub c p) (m - B2R p) (/ 480000) /\ Rabs (m - B2R p) <= 2097152.
Proof.
  intros C M F P. assert (B : Rabs (m - B2R p) <= 2097152) by (apply Rabs_le; apply Rabs_le_inv in M, P; lra). split; [|exact B].
  eapply (approx_sub c p m (B2R p) (/ 500000) 0 2097152); [exact C|now apply near_exact|lra|lra|]. unfold u52. lra.
Qed.
Section Figures.
Context (E : Ext) (atan2 : f64 -> f64 -> f64).
Definition wide (l : list (Z * point)) : f64 := mean (map (fun e => fabs (fsub (px (centre l)) (px (snd e)))) l).
Definition tall (l : list (Z * point)) : f64 := mean (map (fun e => fabs (fsub (py (centre l)) (py (snd e)))) l).
Lemma calc_abs l d : calc_dynamic_state E atan2 l = Some d -> dg_abs d = mkVec2 (wide l) (tall l).
Proof.
  intros H. assert (D : d = dyn_state E atan2 l (match l with [] => mkPoint f0 f0 | (_, p) :: _ => p end)).
  { destruct l as [|[i p] l]; [discriminate|]. unfold calc_dynamic_state in H. now injection H as <-. }
  rewrite D. clear H D. generalize (match l with [] => mkPoint f0 f0 | (_, p) :: _ => p end). intros p.
  unfold dyn_state. cbn [dg_abs]. unfold wide, tall, centre. cbv zeta. cbn [px py]. rewrite !mean_map. reflexivity.
Qed.
Lemma mean_nonneg rs : (forall r, In r rs -> 0 <= r) -> 0 <= rmean rs.
Proof.
  intros H. unfold rmean. assert (P : 0 <= rsum rs).
  { induction rs as [|r rs IH]; [cbn; lra|]. cbn [rsum fold_right]. fold (rsum rs). pose proof (H r (or_introl eq_refl)). specialize (IH ltac:(intros; apply H; now right)). lra. }
  destruct rs as [|r rs]; [cbn; unfold Rdiv; rewrite Rmult_0_l; lra|]. apply Rmult_le_pos; [exact P|]. left. apply Rinv_0_lt_compat. apply lt_0_INR. cbn; lia.
Qed.
Lemma measures_approx l : pythagoras E -> on_screen l -> l <> [] ->
  (approx (wide l) (width_of l) (/ 180000) /\ 0 <= width_of l <= 4194304) /\ (approx (tall l) (height_of l) (/ 180000) /\ 0 <= height_of l <= 4194304) /\
  (approx (spread E l) (spread_of l) (/ 180000) /\ 0 <= spread_of l <= 4194304).
Proof.
  intros Py O Ne. destruct (centre_approx l O Ne) as [[Cx Bx] [Cy By]]. destruct O as [Len O].
  assert (Nm : forall B (f : Z * point -> B), map f l <> []) by (intros B f; destruct l; [congruence|discriminate]).
  assert (Nn : forall r f, 0 <= r -> (forall e, In e l -> 0 <= f e) -> Rabs (rmean (map f l)) <= r -> 0 <= rmean (map f l) <= r).
  { intros r f Hr Hf H. split; [|apply Rle_trans with (1 := Rle_abs _) (2 := H)]. apply mean_nonneg. intros x Hx. apply in_map_iff in Hx as (e & <- & He). now apply Hf. }
  split; [|split].
  - destruct (mean_approx 4194304 (/ 400000) (map (fun e => fabs (fsub (px (centre l)) (px (snd e)))) l)
      (map (fun e => Rabs (mid_x l - B2R (px (snd e)))) l)) as [A B]; [lra|lra| |apply Nm|now rewrite map_length|].
    + apply Forall2_maps. intros [id p] H. destruct (O id p H) as [[F P] _]. cbn [snd]. destruct (offset_approx _ _ (px p) Cx Bx F P) as [Q R].
      split; [apply approx_abs; eapply near_weaken; [exact Q|lra]|]. rewrite Rabs_Rabsolu. lra.
    + unfold wide, width_of. split; [eapply near_weaken; [exact A|lra]|]. apply Nn; [lra|intros; apply Rabs_pos|exact B].
  - destruct (mean_approx 4194304 (/ 400000) (map (fun e => fabs (fsub (py (centre l)) (py (snd e)))) l)
      (map (fun e => Rabs (mid_y l - B2R (py (snd e)))) l)) as [A B]; [lra|lra| |apply Nm|now rewrite map_length|].
    + apply Forall2_maps. intros [id p] H. destruct (O id p H) as [_ [F P]]. cbn [snd]. destruct (offset_approx _ _ (py p) Cy By F P) as [Q R].
      split; [apply approx_abs; eapply near_weaken; [exact Q|lra]|]. rewrite Rabs_Rabsolu. lra.
    + unfold tall, height_of. split; [eapply near_weaken; [exact A|lra]|]. apply Nn; [lra|intros; apply Rabs_pos|exact B].
  - destruct (mean_approx 4194304 (/ 220000) (map (fun e => x_hypot E (fsub (px (centre l)) (px (snd e))) (fsub (py (centre l)) (py (snd e)))) l)
      (map (fun e => sqrt ((mid_x l - B2R (px (snd e))) ^ 2 + (mid_y l - B2R (py (snd e))) ^ 2)) l)) as [A B]; [lra|lra| |apply Nm|now rewrite map_length|].
    + apply Forall2_maps. intros [id p] H. destruct (O id p H) as [[Fx Px] [Fy Pyy]]. cbn [snd].
      destruct (offset_approx _ _ (px p) Cx Bx Fx Px) as [Q R]. destruct (offset_approx _ _ (py p) Cy By Fy Pyy) as [Q' R'].
      split; [|apply Rle_trans with (1 := hyp_bound _ _ _ R R'); lra].
      pose proof (near_bound _ _ _ _ Q R) as B1. pose proof (near_bound _ _ _ _ Q' R') as B2. destruct Q as [F1 E1], Q' as [F2 E2].
      destruct (Py _ _ F1 F2 ltac:(lra) ltac:(lra)) as [Fh Eh]. split; [exact Fh|].
      pose proof (hyp_close (B2R (fsub (px (centre l)) (px p))) (B2R (fsub (py (centre l)) (py p))) (mid_x l - B2R (px p)) (mid_y l - B2R (py p)) (/ 480000 + / 480000) ltac:(lra)) as C.
      set (h := B2R (x_hypot _ _ _)) in *. set (s1 := sqrt _) in *. set (s2 := sqrt _) in *. apply Rabs_le. apply Rabs_le_inv in C, Eh. lra.
    + unfold spread, spread_of. cbv zeta. split; [eapply near_weaken; [exact A|lra]|]. apply Nn; [lra|intros; apply sqrt_pos|exact B].
Qed.
End Figures.
Lemma quotient_approx x y a b : approx x a (/ 180000) -> approx y b (/ 180000) -> 0 <= a <= 4194304 -> 0 <= b -> quotient (fdiv x y) a b.
Proof.
  intros [Fx Ex] [Fy Ey] Ha Hb' Hb. apply Rabs_le_inv in Ex, Ey.
  set (d := / 180000) in *. assert (Hd : d = / 180000) by reflexivity. assert (Y : (99 / 100) * b <= B2R y) by lra.
  assert (Q0 : 0 <= a / b) by (apply Rmult_le_pos; [lra|left; apply Rinv_0_lt_compat; lra]).
  assert (Qu : a / b <= 4194304) by (apply Rmult_le_reg_r with b; [lra|]; unfold Rdiv; rewrite Rmult_assoc, Rinv_l by lra; nra).
  assert (Q : Rabs (B2R x / B2R y - a / b) <= (a / b + 1) * (102 / 100 * d)).
  { replace (B2R x / B2R y - a / b) with (((B2R x - a) + (a / b) * (b - B2R y)) / B2R y) by (field; lra).
    unfold Rdiv at 1. rewrite Rabs_mult, Rabs_inv, (Rabs_pos_eq (B2R y)) by lra. apply Rmult_le_reg_r with (B2R y); [lra|]. rewrite Rmult_assoc, Rinv_l, Rmult_1_r by lra.
    apply Rle_trans with (d + a / b * d).
    - apply Rle_trans with (1 := Rabs_triang _ _). apply Rplus_le_compat; [apply Rabs_le; lra|]. rewrite Rabs_mult, (Rabs_pos_eq (a / b)) by lra.
      apply Rmult_le_compat_l; [lra|]. apply Rabs_le. lra.
    - replace (d + a / b * d) with ((a / b + 1) * d) by ring. rewrite Rmult_assoc. apply Rmult_le_compat_l; [lra|]. rewrite Rmult_assoc. 
      assert (1 <= 102 / 100 * B2R y) by lra. nra. }
  assert (A : Rabs (B2R x / B2R y) <= 4194304 + 1 + 4194305).
  { apply Rabs_le. apply Rabs_le_inv in Q. assert ((a / b + 1) * (102 / 100 * d) <= 4194305 * 1) by (apply Rmult_le_compat; lra). lra. }
  destruct (fdiv_R x y Fx) as [E F]; [lra|pose proof big_range; lra|]. split; [exact F|]. rewrite E.
  pose proof (rnd_error (B2R x / B2R y)) as R.
  assert (A' : Rabs (B2R x / B2R y) <= 2 * (a / b + 1)).
  { apply Rabs_le. apply Rabs_le_inv in Q. assert ((a / b + 1) * (102 / 100 * d) <= (a / b + 1) * 1) by (apply Rmult_le_compat_l; lra). lra. }
  set (t := B2R x / B2R y) in *. replace (rnd t - a / b) with ((rnd t - t) + (t - a / b)) by ring. apply Rle_trans with (1 := Rabs_triang _ _).
  assert (u52 * (Rabs t + 1) <= u52 * (3 * (a / b + 1))) by (apply Rmult_le_compat_l; [unfold u52; lra|lra]).
  unfold u52 in *. replace ((a / b + 1) / 100000) with ((a / b + 1) * / 100000) by (unfold Rdiv; ring). assert (Hq : 1 <= a / b + 1) by lra. set (q := a / b + 1) in *. rewrite Hd in Q. lra.
Qed.
(** ** The kind of pinch *)
Lemma gap_approx x y : fin x -> fin y -> Rabs (B2R x) <= 1048576 -> Rabs (B2R y) <= 1048576 ->
  approx (fabs (fsub x y)) (Rabs (B2R x - B2R y)) (/ 1000000) /\ approx (fmul (f_of_Z 3) (fabs (fsub x y))) (3 * Rabs (B2R x - B2R y)) (/ 100000).
Proof.
  intros Fx Fy Bx By. assert (S : approx (fsub x y) (B2R x - B2R y) (/ 1000000)).
  { eapply (approx_sub x y _ _ 0 0 2097152); [now apply near_exact|now apply near_exact|lra|lra|]. unfold u52. lra. }
  apply approx_abs in S. split; [exact S|].
  assert (B : Rabs (Rabs (B2R x - B2R y)) <= 2097152) by (rewrite Rabs_Rabsolu; apply Rabs_le; apply Rabs_le_inv in Bx, By; lra).
  destruct (f_of_Z_R 3 ltac:(lia)) as [R3 F3].
  apply (near_mul _ _ _ _ 0 (/ 1000000) 3 2097152); [now apply near_exact|exact S|rewrite Rabs_pos_eq; lra|exact B|lra|lra|]. unfold u52. lra.
Qed.
Lemma approx_lt x y r s d e : approx x r d -> approx y s e -> r + d + e < s -> fltb x y = true.
Proof. intros [Fx Ex] [Fy Ey] H. apply fltb_lt; auto. apply Rabs_le_inv in Ex, Ey. lra. Qed.
Lemma approx_ge x y r s d e : approx x r d -> approx y s e -> s + d + e <= r -> fltb x y = false.
Proof.
  intros [Fx Ex] [Fy Ey] H. destruct (fltb x y) eqn:L; [|reflexivity]. apply fltb_lt in L; auto. apply Rabs_le_inv in Ex, Ey. lra.
Qed.
Lemma classify_kind l : on_screen l -> (beside l -> classify l = PinchHorizontal) /\ (stacked l -> classify l = PinchVertical) /\ (oblique l -> classify l = PinchProportional).
Proof.
  intros [_ O]. assert (G : forall i p j q, l = [(i, p); (j, q)] ->
     (approx (fabs (fsub (px p) (px q))) (Rabs (B2R (px p) - B2R (px q))) (/ 1000000) /\ approx (fmul (f_of_Z 3) (fabs (fsub (px p) (px q)))) (3 * Rabs (B2R (px p) - B2R (px q))) (/ 100000)) /\
     (approx (fabs (fsub (py p) (py q))) (Rabs (B2R (py p) - B2R (py q))) (/ 1000000) /\ approx (fmul (f_of_Z 3) (fabs (fsub (py p) (py q)))) (3 * Rabs (B2R (py p) - B2R (py q))) (/ 100000))).
  { intros i p j q ->. destruct (O i p ltac:(now left)) as [[] []]. destruct (O j q ltac:(right; now left)) as [[] []]. split; apply gap_approx; assumption. }
  clear O. split; [|split].
  - intros ([i p] & [j q] & -> & H). destruct (G i p j q eq_refl) as [[X X3] [Y Y3]]. cbn [snd] in H. cbn [classify].
    rewrite (approx_lt _ _ _ _ _ _ Y3 X); [reflexivity|lra].
  - intros ([i p] & [j q] & -> & H). destruct (G i p j q eq_refl) as [[X X3] [Y Y3]]. cbn [snd] in H. cbn [classify].
    pose proof (Rabs_pos (B2R (px p) - B2R (px q))).
    rewrite (approx_ge _ _ _ _ _ _ Y3 X), (approx_lt _ _ _ _ _ _ X3 Y); [reflexivity|lra|lra].
  - intros H. destruct l as [|[i p] [|[j q] [|c l]]]; try reflexivity. destruct (G i p j q eq_refl) as [[X X3] [Y Y3]].
    destruct (H (i, p) (j, q) eq_refl) as [H1 H2]. cbn [snd] in H1, H2. cbn [classify].
    rewrite (approx_ge _ _ _ _ _ _ Y3 X), (approx_ge _ _ _ _ _ _ X3 Y); [reflexivity|lra|lra].
Qed.
Section Pinch.
Context (E : Ext) (atan2 : f64 -> f64 -> f64).
Let touched := touched E atan2.
Definition kind (s : touch_state) : option pinch_type := option_map ge_pinch (ts_gesture s).
Lemma moves_gesture m h : Forall (fun e => e <> TvFrame) m -> ts_gesture (touched (m ++ h)) = ts_gesture (touched h).
Proof. intros F. induction F as [|[t|] m He F IH]; [reflexivity| |now elim He]. cbn [app]. unfold touched. cbn [PropTouch.touched]. rewrite event_gesture. exact IH. Qed.
Lemma end_kind s : kind (end_frame E atan2 s) =
  match ts_active s with [] => None | _ => match ts_gesture s with Some g => Some (ge_pinch g) | None => Some (classify (ts_active s)) end end.
Proof.
  unfold kind, end_frame, update_gesture. cbv zeta. cbn [ts_gesture ts_changed ts_active].
  destruct (ts_active s) as [|[i p] l] eqn:A; cbn [calc_dynamic_state]; [now destruct (ts_changed s)|].
  now destruct (ts_changed s), (ts_gesture s).
Qed.
Lemma began_kind h l : proper h -> began h l -> kind (end_frame E atan2 (touched h)) = Some (classify l).
Proof.
  intros P B. revert P. induction B as [h l D Ne F|m h l F D Ne D0|m h l gs F D Ne B IH]; intros P.
  - rewrite end_kind. unfold touched. rewrite (down_active _ _ _ _ P D). destruct l as [|x l]; [congruence|]. set (l' := x :: l).
    assert (G : ts_gesture (touched h) = None). { rewrite <- (app_nil_r h). rewrite moves_gesture by exact F. reflexivity. }
    unfold touched in G. rewrite G. reflexivity.
  - assert (Ph : proper h) by (intros t Ht; apply P, in_or_app; right; now right).
    rewrite end_kind. unfold touched. rewrite (down_active _ _ _ _ P D). destruct l as [|x l]; [congruence|].
    assert (G : ts_gesture (touched (m ++ TvFrame :: h)) = None).
    { rewrite moves_gesture by exact F. unfold touched. cbn [PropTouch.touched]. pose proof (end_kind (touched h)) as K. unfold touched in K. rewrite (down_active _ _ _ _ Ph D0) in K.
      unfold kind in K. now destruct (ts_gesture (end_frame E atan2 (PropTouch.touched E atan2 h))). }
    unfold touched in G. rewrite G. reflexivity.
  - assert (Ph : proper h) by (intros t Ht; apply P, in_or_app; right; now right). specialize (IH Ph).
    rewrite end_kind. unfold touched. rewrite (down_active _ _ _ _ P D). destruct gs as [|x gs]; [congruence|].
    assert (G : ts_gesture (touched (m ++ TvFrame :: h)) = ts_gesture (end_frame E atan2 (touched h))) by (rewrite moves_gesture by exact F; reflexivity).
    unfold touched in G. rewrite G. unfold kind, touched in IH. destruct (ts_gesture (end_frame E atan2 (PropTouch.touched E atan2 h))) as [g|]; [|discriminate]. exact IH.
Qed.

(** ** C86 *)
(** The centre of the gesture is in the middle of the fingers. *)
Theorem C86_centre : forall h l i, proper h -> down h l -> on_screen l -> report E atan2 h = Some i ->
  approx (px (mi_centre i)) (mid_x l) (/ 100000) /\ approx (py (mi_centre i)) (mid_y l) (/ 100000).
Proof.
  intros h l i P D O R. destruct (C73_fingers E atan2 h P) as [_ F]. destruct (F l D) as [N C]. destruct (C i R) as [_ ->].
  assert (Ne : l <> []) by (intros ->; rewrite (proj2 N eq_refl) in R; discriminate).
  destruct (centre_approx l O Ne) as [[X _] [Y _]]. split; (eapply near_weaken; [eassumption|lra]).
Qed.
Lemma report_axes moves h i j fs gs k : proper (moves ++ TvFrame :: h) -> changed (moves ++ TvFrame :: h) = false ->
  Forall (fun e => e <> TvFrame) moves -> down h fs -> down (moves ++ TvFrame :: h) gs ->
  report E atan2 h = Some i -> report E atan2 (moves ++ TvFrame :: h) = Some j -> kind (end_frame E atan2 (touched h)) = Some k ->
  mi_zoom_2d j = if (1 <? List.length gs)%nat then
    match k with
    | PinchHorizontal => mkVec2 (fdiv (wide gs) (wide fs)) f1
    | PinchVertical => mkVec2 f1 (fdiv (tall gs) (tall fs))
    | PinchProportional => mkVec2 (mi_zoom j) (mi_zoom j)
    end else mkVec2 f1 f1.
Proof.
  intros P C NF Df Dg Ri Rj K. pose proof (down_active E atan2 _ _ P Dg) as Ag.
  assert (Ph : proper h) by (intros t Ht; apply P, in_or_app; right; now right).
  pose proof (down_active E atan2 _ _ Ph Df) as Af. pose proof (moves_gesture moves (TvFrame :: h) NF) as Gm. unfold touched in Gm, K. cbn [PropTouch.touched] in Gm.
  pose proof (end_frame_current E atan2 (PropTouch.touched E atan2 h)) as Cu. rewrite Af in Cu. unfold current in Cu. unfold kind in K.
  unfold report in Rj. cbn [PropTouch.touched] in Rj.
  destruct (ts_gesture (end_frame E atan2 (PropTouch.touched E atan2 h))) as [g|]; [|discriminate]. injection K as K.
  cbn [option_map] in Cu. symmetry in Cu. apply calc_abs in Cu.
  unfold end_frame in Rj. cbv zeta in Rj.
  change (ts_changed (update_gesture E atan2 (PropTouch.touched E atan2 (moves ++ TvFrame :: h)))) with (ts_changed (PropTouch.touched E atan2 (moves ++ TvFrame :: h))) in Rj.
  rewrite changed_flag, C in Rj. cbv match in Rj. unfold update_gesture in Rj. cbn [ts_gesture ts_active] in Rj. rewrite Gm, Ag in Rj.
  destruct (calc_dynamic_state E atan2 gs) as [d|] eqn:Cg; [|discriminate]. apply calc_abs in Cg.
  unfold info in Rj. cbn [ts_gesture ge_previous ge_current ge_pinch ts_active] in Rj. injection Rj as <-.
  cbn [mi_zoom_2d mi_zoom]. rewrite Cu, Cg, K. cbn [vx vy]. reflexivity.
Qed.
(** The next frame, with the same fingers down: [fs] is where they were, [gs] where they are. *)
Definition moved_on (moves h : list tev) (fs gs : list (Z * point)) : Prop :=
  proper (moves ++ TvFrame :: h) /\ changed (moves ++ TvFrame :: h) = false /\ Forall (fun e => e <> TvFrame) moves /\
  down h fs /\ down (moves ++ TvFrame :: h) gs /\ on_screen fs /\ on_screen gs.
Lemma moved_parts moves h fs gs i j : moved_on moves h fs gs -> report E atan2 h = Some i -> report E atan2 (moves ++ TvFrame :: h) = Some j -> fs <> [] /\ gs <> [].
Proof.
  intros (P & C & NF & Df & Dg & _) Ri Rj. assert (Ph : proper h) by (intros t Ht; apply P, in_or_app; right; now right).
  split; intros ->.
  - destruct (C73_fingers E atan2 h Ph) as [_ F]. destruct (F [] Df) as [N _]. rewrite (proj2 N eq_refl) in Ri. discriminate.
  - destruct (C73_fingers E atan2 _ P) as [_ F]. destruct (F [] Dg) as [N _]. rewrite (proj2 N eq_refl) in Rj. discriminate.
Qed.
(** The gesture moves as the middle of the fingers does. *)
Theorem C86_translation : forall moves h i j fs gs, moved_on moves h fs gs -> report E atan2 h = Some i -> report E atan2 (moves ++ TvFrame :: h) = Some j ->
  approx (vx (mi_translation j)) (mid_x gs - mid_x fs) (/ 100000) /\ approx (vy (mi_translation j)) (mid_y gs - mid_y fs) (/ 100000).
Proof.
  intros moves h i j fs gs M Ri Rj. destruct (moved_parts _ _ _ _ _ _ M Ri Rj) as [Nf Ng]. destruct M as (P & C & NF & Df & Dg & Of & Og).
  destruct (C73_movement E atan2 moves h i j fs gs P C NF Df Dg Ri Rj) as (-> & _). cbn [vx vy].
  destruct (centre_approx fs Of Nf) as [[X1 B1] [Y1 D1]]. destruct (centre_approx gs Og Ng) as [[X2 B2] [Y2 D2]].
  split; (eapply (approx_sub _ _ _ _ (/ 500000) (/ 500000) 2097152); [eassumption|eassumption|lra|lra|unfold u52; lra]).
Qed.
(** It zooms as the fingers move apart from their middle. *)
Theorem C86_zoom : forall moves h i j fs gs, pythagoras E -> moved_on moves h fs gs ->
  report E atan2 h = Some i -> report E atan2 (moves ++ TvFrame :: h) = Some j ->
  ((2 <= List.length gs)%nat -> quotient (mi_zoom j) (spread_of gs) (spread_of fs)) /\ ((List.length gs < 2)%nat -> mi_zoom j = f1).
Proof.
  intros moves h i j fs gs Py M Ri Rj. destruct (moved_parts _ _ _ _ _ _ M Ri Rj) as [Nf Ng]. destruct M as (P & C & NF & Df & Dg & Of & Og).
  destruct (C73_movement E atan2 moves h i j fs gs P C NF Df Dg Ri Rj) as (_ & -> & _).
  destruct (measures_approx E fs Py Of Nf) as (_ & _ & S1 & B1). destruct (measures_approx E gs Py Og Ng) as (_ & _ & S2 & B2). split; intros L.
  - replace (1 <? List.length gs)%nat with true by (symmetry; apply Nat.ltb_lt; lia). apply quotient_approx; auto; lra.
  - replace (1 <? List.length gs)%nat with false by (symmetry; apply Nat.ltb_ge; lia). reflexivity.
Qed.
(** Fingers that began side by side stretch along the screen only, fingers that
    began one above the other across it only, others in both directions alike. *)
Theorem C86_axes : forall moves h i j fs gs l, pythagoras E -> moved_on moves h fs gs -> began h l -> on_screen l ->
  report E atan2 h = Some i -> report E atan2 (moves ++ TvFrame :: h) = Some j -> (2 <= List.length gs)%nat ->
  (beside l -> quotient (vx (mi_zoom_2d j)) (width_of gs) (width_of fs) /\ vy (mi_zoom_2d j) = f1) /\
  (stacked l -> vx (mi_zoom_2d j) = f1 /\ quotient (vy (mi_zoom_2d j)) (height_of gs) (height_of fs)) /\
  (oblique l -> mi_zoom_2d j = mkVec2 (mi_zoom j) (mi_zoom j)).
Proof.
  intros moves h i j fs gs l Py M B Ol Ri Rj L. destruct (moved_parts _ _ _ _ _ _ M Ri Rj) as [Nf Ng]. destruct M as (P & C & NF & Df & Dg & Of & Og).
  assert (Ph : proper h) by (intros t Ht; apply P, in_or_app; right; now right).
  pose proof (report_axes moves h i j fs gs _ P C NF Df Dg Ri Rj (began_kind h l Ph B)) as Z.
  replace (1 <? List.length gs)%nat with true in Z by (symmetry; apply Nat.ltb_lt; lia).
  destruct (classify_kind l Ol) as (K1 & K2 & K3).
  destruct (measures_approx E fs Py Of Nf) as ((W1 & V1) & (T1 & U1) & _). destruct (measures_approx E gs Py Og Ng) as ((W2 & V2) & (T2 & U2) & _).
  split; [|split]; intros H; [rewrite (K1 H) in Z|rewrite (K2 H) in Z|rewrite (K3 H) in Z]; rewrite Z; cbn [vx vy].
  - split; [apply quotient_approx; auto; lra|reflexivity].
  - split; [reflexivity|apply quotient_approx; auto; lra].
  - reflexivity.
Qed.
End Pinch.

(** A library with a good hypotenuse. *)
Definition round24 (r : R) : f64 := fnorm (ZnearestE (r * bpow radix2 24)) (-24).
Lemma round24_near r : Rabs r <= 16777216 -> approx (round24 r) r (/ 10000000).
Proof.
  intros B. unfold round24. set (z := ZnearestE (r * bpow radix2 24)).
  pose proof (Znearest_half (fun x => negb (Z.even x)) (r * bpow radix2 24)) as H. change (Znearest _ _) with z in H.
  assert (D : Rabs (IZR z * bpow radix2 (-24) - r) <= / 33554432).
  { replace (IZR z * bpow radix2 (-24) - r) with (- (r * bpow radix2 24 - IZR z) * bpow radix2 (-24)).
    2:{ assert (P : bpow radix2 24 * bpow radix2 (-24) = 1) by (rewrite <- bpow_plus; reflexivity).
        transitivity (IZR z * bpow radix2 (-24) - r * (bpow radix2 24 * bpow radix2 (-24))); [ring|]. rewrite P. ring. }
    rewrite Rabs_mult, Rabs_Ropp, (Rabs_pos_eq (bpow _ _)) by apply bpow_ge_0.
    change (bpow radix2 (-24)) with (/ IZR 16777216). pose proof (Rabs_pos (r * bpow radix2 24 - IZR z)).
    apply Rle_trans with (/ 2 * / 16777216); [|lra]. apply Rmult_le_compat_r; lra. }
  assert (Bz : Rabs (IZR z * bpow radix2 (-24)) <= 16777217).
  { replace (IZR z * bpow radix2 (-24)) with ((IZR z * bpow radix2 (-24) - r) + r) by ring.
    apply Rle_trans with (1 := Rabs_triang _ _). lra. }
  pose proof (binary_normalize_correct 53 1024 _ _ mode_NE z (-24) false) as N. cbv zeta in N.
  unfold F2R in N. cbn [Fnum Fexp] in N. rewrite Rlt_bool_true in N.
  2:{ apply Rle_lt_trans with (bpow radix2 30); [|apply bpow_lt; lia]. apply rnd_bpow_le; [lia|].
      change (bpow radix2 30) with 1073741824. lra. }
  destruct N as (Nr & Nf & _). split; [exact Nf|]. unfold fnorm. rewrite Nr.
  apply Rle_trans with (1 := triangle _ _ _ _ _ (rnd_error _) D). unfold u52. lra.
Qed.
Definition E_pythagoras : Ext := {|
  x_sin := x_sin E0; x_cos := x_cos E0; x_tan := x_tan E0;
  x_powf := x_powf E0; x_hypot := fun x y => round24 (sqrt (B2R x ^ 2 + B2R y ^ 2)); x_solve_cubic := x_solve_cubic E0; x_rrect_path := x_rrect_path E0;
  x_ellipse_path := x_ellipse_path E0; x_arclen := x_arclen E0; x_inv_arclen := x_inv_arclen E0;
  x_subsegment := x_subsegment E0; x_color_mul_alpha := x_color_mul_alpha E0; x_brush_mul_alpha := x_brush_mul_alpha E0 |}.
Lemma E_pythagoras_ok : pythagoras E_pythagoras.
Proof.
  intros x y _ _ Bx By. cbn [E_pythagoras x_hypot]. apply round24_near. apply Rle_trans with (1 := hyp_bound _ _ 4194304 Bx By). lra.
Qed.
(** Two fingers side by side; the second moves away. *)
Definition two_down : list tev := [finger_down 2 100 10; finger_down 1 0 0].
Definition slide : list tev := [TvTouch (mkTouchEv Moved 2 (mkPoint (f_of_Z 200) (f_of_Z 10)))].
Definition near_by : list (Z * point) := [(1%Z, mkPoint (f_of_Z 0) (f_of_Z 0)); (2%Z, mkPoint (f_of_Z 100) (f_of_Z 10))].
Definition apart : list (Z * point) := [(1%Z, mkPoint (f_of_Z 0) (f_of_Z 0)); (2%Z, mkPoint (f_of_Z 200) (f_of_Z 10))].
Lemma down_two h a b p q : (a < b)%Z -> (forall id, finger h id = if (b =? id)%Z then Some q else if (a =? id)%Z then Some p else None) ->
  down h [(a, p); (b, q)].
Proof.
  intros L F. split; [repeat constructor; exact L|]. intros id r. rewrite F. cbn [In]. destruct (Z.eqb_spec b id) as [<-|Nb]; [|destruct (Z.eqb_spec a id) as [<-|Na]].
  - split; [intros [H|[H|[]]]|intros H]; [exfalso; assert (a = b) by congruence; lia|congruence|right; left; congruence].
  - split; [intros [H|[H|[]]]|intros H]; [congruence|exfalso; assert (a = b) by congruence; lia|left; congruence].
  - split; [intros [H|[H|[]]]; exfalso; [apply Na|apply Nb]; congruence|discriminate].
Qed.
Lemma screen_two a b x y u v : (Z.abs x <= 1048576)%Z -> (Z.abs y <= 1048576)%Z -> (Z.abs u <= 1048576)%Z -> (Z.abs v <= 1048576)%Z ->
  on_screen [(a, mkPoint (f_of_Z x) (f_of_Z y)); (b, mkPoint (f_of_Z u) (f_of_Z v))].
Proof.
  intros Hx Hy Hu Hv. assert (Z : forall z, (Z.abs z <= 1048576)%Z -> fin (f_of_Z z) /\ Rabs (B2R (f_of_Z z)) <= 1048576).
  { intros z H. destruct (f_of_Z_R z ltac:(lia)) as [-> F]. split; [exact F|]. rewrite <- abs_IZR. apply IZR_le. exact H. }
  split; [cbn; lia|]. intros id p [H|[H|[]]]; [assert (p = mkPoint (f_of_Z x) (f_of_Z y)) as -> by congruence|assert (p = mkPoint (f_of_Z u) (f_of_Z v)) as -> by congruence];
    cbn [px py]; split; apply Z; assumption.
Qed.
Lemma C86_applies_down : down two_down near_by.
Proof.
  apply down_two; [lia|]. intros id. unfold two_down, finger_down. cbn [finger te_id te_phase te_pos]. reflexivity.
Qed.
Example C86_applies : forall atan2, pythagoras E_pythagoras /\ moved_on slide two_down near_by apart /\ began two_down near_by /\ on_screen near_by /\
  beside near_by /\ (exists i, report E_pythagoras atan2 two_down = Some i) /\ (exists j, report E_pythagoras atan2 (slide ++ TvFrame :: two_down) = Some j) /\
  1 <= width_of near_by /\ width_of near_by = 50 /\ width_of apart = 100.
Proof.
  intros atan2. split; [apply E_pythagoras_ok|]. 
  assert (D2 : down (slide ++ TvFrame :: two_down) apart).
  { apply down_two; [lia|]. intros id. unfold slide, two_down, finger_down. cbn [app finger te_id te_phase te_pos].
    destruct (2 =? id)%Z eqn:E; reflexivity. }
  assert (W : forall x y u v a b, (Z.abs x <= 1048576)%Z -> (Z.abs u <= 1048576)%Z -> (x <= u)%Z -> width_of [(a, mkPoint (f_of_Z x) y); (b, mkPoint (f_of_Z u) v)] = (IZR u - IZR x) / 2).
  { intros x y u v a b Hx Hu L. unfold width_of, mid_x, rmean, rsum. cbn [map snd px fold_right List.length].
    destruct (f_of_Z_R x ltac:(lia)) as [-> _]. destruct (f_of_Z_R u ltac:(lia)) as [-> _]. replace (INR 2) with 2 by (cbn; lra).
    apply IZR_le in L. rewrite (Rabs_pos_eq ((IZR x + (IZR u + 0)) / 2 - IZR x)) by lra. rewrite (Rabs_left1 ((IZR x + (IZR u + 0)) / 2 - IZR u)) by lra. lra. }
  split.
  { split; [|split; [reflexivity|split; [|split; [exact C86_applies_down|split; [exact D2|split; apply screen_two; lia]]]]].
    - intros t [H|[H|[H|[H|[]]]]]; try discriminate; injection H as <-; cbn [te_id]; lia.
    - repeat constructor; discriminate. }
  split. { apply bg_first; [exact C86_applies_down|discriminate|]. repeat constructor; discriminate. }
  split; [apply screen_two; lia|]. split.
  { exists (1%Z, mkPoint (f_of_Z 0) (f_of_Z 0)), (2%Z, mkPoint (f_of_Z 100) (f_of_Z 10)). split; [reflexivity|]. cbn [snd px py].
    destruct (f_of_Z_R 0 ltac:(lia)) as [-> _]. destruct (f_of_Z_R 10 ltac:(lia)) as [-> _]. destruct (f_of_Z_R 100 ltac:(lia)) as [-> _].
    rewrite !Rabs_left1 by lra. lra. }
  split; [eexists; reflexivity|]. split; [eexists; reflexivity|].
  unfold near_by, apart. rewrite !W by lia. lra.
Qed.
