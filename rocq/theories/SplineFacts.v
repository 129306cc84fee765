(** Splines: conversion to paths, hold keyframes, finiteness. *)
From Coq Require Import ZArith Reals Bool List Arith Lia Lra.
From Flocq Require Import Core BinarySingleNaN.
From Verif Require Import F64 F64Facts Kurbo Value Animated ValueSpec ValueFacts ValueFacts2.
Import ListNotations.
Open Scope nat_scope.

Lemma mapM_map {A B} (f : A -> res B) (g : A -> B) l :
  (forall x, In x l -> f x = Ok (g x)) -> mapM f l = Ok (map g l).
Proof.
  induction l as [|x l IH]; intros H; [reflexivity|]. cbn [mapM map].
  rewrite (H x) by now left. cbn. rewrite IH by (intros y Hy; apply H; now right). reflexivity.
Qed.
Lemma index_nth {A} (l : list A) i d : i < List.length l -> index l i = Ok (nth i l d).
Proof. intros H. unfold index. now rewrite (nth_error_nth' l d H). Qed.

(** The segment between two vertices. *)
Definition seg (pts : list point) (i j : nat) : path_el :=
  if point_eqb (out_control pts i) (vertex pts i) && point_eqb (in_control pts j) (vertex pts j)
  then LineTo (vertex pts j) else CurveTo (out_control pts i) (in_control pts j) (vertex pts j).
Lemma point_eqb_same p q : point_eqb p q = true <-> same_point p q.
Proof. unfold point_eqb, same_point, same_number. now rewrite andb_true_iff. Qed.
Lemma seg_connects pts i j : connects pts i j (seg pts i j).
Proof.
  unfold connects, seg. rewrite <- !point_eqb_same.
  destruct (point_eqb (out_control pts i) _), (point_eqb (in_control pts j) _); cbn; intuition discriminate.
Qed.
Lemma add_element_seg pts i j : 3 * i + 2 < List.length pts -> 3 * j + 2 < List.length pts ->
  add_element (index pts) i j = Ok (seg pts i j).
Proof.
  intros Hi Hj. unfold add_element. cbv zeta.
  rewrite (index_nth pts (3 * i) pt_dflt) by lia. rewrite (index_nth pts (3 * j) pt_dflt) by lia.
  rewrite (index_nth pts (3 * i + 2) pt_dflt) by lia. rewrite (index_nth pts (3 * j + 1) pt_dflt) by lia.
  reflexivity.
Qed.
(** The path a spline is converted to. *)
Definition path_of (pts : list point) (closed : bool) : list path_el :=
  let n := List.length pts / 3 in
  MoveTo (vertex pts 0) :: map (fun i => seg pts (i - 1) i) (seq 1 (n - 1)) ++
  (if closed && (0 <? n) then [seg pts (n - 1) 0; ClosePath] else []).
Lemma spline_to_path_of pts closed : pts <> [] -> spline_to_path pts closed = Ok (path_of pts closed).
Proof.
  intros Ne. unfold spline_to_path, to_path, path_of.
  assert (L : 0 < List.length pts) by (destruct pts; [congruence|simpl; lia]).
  assert (B : forall j, j < List.length pts / 3 -> 3 * j + 2 < List.length pts).
  { intros j Hj. pose proof (Nat.div_mod (List.length pts) 3). lia. }
  rewrite (proj2 (Nat.eqb_neq _ _)) by lia. rewrite (index_nth pts 0 pt_dflt) by lia. cbn [bind].
  rewrite (mapM_map _ (fun i => seg pts (i - 1) i)).
  2:{ intros i Hi. apply in_seq in Hi. apply add_element_seg; apply B; lia. }
  cbn [bind]. replace (0 <? List.length pts / 3) with (negb (List.length pts / 3 =? 0))
    by (destruct (List.length pts / 3); reflexivity).
  destruct closed; cbn [andb]; [|reflexivity].
  destruct (Nat.eqb_spec (List.length pts / 3) 0) as [|N]; cbn [negb]; [reflexivity|].
  rewrite add_element_seg by (apply B; lia). reflexivity.
Qed.
Lemma path_of_spec pts closed : spline_path pts closed (path_of pts closed).
Proof.
  unfold spline_path, path_of. exists (map (fun i => seg pts (i - 1) i) (seq 1 (List.length pts / 3 - 1))).
  split; [now rewrite map_length, seq_length|]. split.
  - intros i Hi. rewrite (nth_indep _ ClosePath (seg pts (0 - 1) 0)) by now rewrite map_length, seq_length.
    rewrite (map_nth (fun i => seg pts (i - 1) i)). rewrite seq_nth by assumption.
    replace (1 + i - 1) with i by lia. apply seg_connects.
  - destruct (closed && _).
    + eexists. split; [apply seg_connects|reflexivity].
    + now rewrite app_nil_r.
Qed.

(** Interpolating two splines is the spline of the interpolated points. *)
Definition lerp_points (a b : list point) (t : f64) : list point :=
  map (fun pq => point_lerp (fst pq) (snd pq) t) (combine a b).
Lemma lerp_index a b t i :
  (let! p := index a i in let! q := index b i in Ok (point_lerp p q t)) =
  index (lerp_points a b t) i \/
  (index a i = Panic \/ index b i = Panic) /\ index (lerp_points a b t) i = Panic.
Proof.
  unfold lerp_points, index. revert b i. induction a as [|x a IH]; intros b i.
  - left. destruct i; reflexivity.
  - destruct b as [|y b].
    + right. destruct i; cbn; auto.
    + destruct i as [|i]; [left; reflexivity|]. apply (IH b i).
Qed.
Lemma lerp_index_lt a b t i : i < List.length (lerp_points a b t) ->
  (let! p := index a i in let! q := index b i in Ok (point_lerp p q t)) = index (lerp_points a b t) i.
Proof.
  intros H. destruct (lerp_index a b t i) as [E|[_ E]]; auto.
  rewrite (index_nth _ i pt_dflt H) in E. discriminate.
Qed.
Lemma lerp_length a b t : List.length (lerp_points a b t) = Nat.min (List.length a) (List.length b).
Proof. unfold lerp_points. now rewrite map_length, combine_length. Qed.
Lemma add_element_ext g g' len i j : (forall k, k < len -> g k = g' k) -> 3 * i + 2 < len -> 3 * j + 2 < len ->
  add_element g i j = add_element g' i j.
Proof. intros H Hi Hj. unfold add_element. cbv zeta. rewrite !H by lia. reflexivity. Qed.
Lemma mapM_ext {A B} (f g : A -> res B) l : (forall x, In x l -> f x = g x) -> mapM f l = mapM g l.
Proof.
  induction l as [|x l IH]; intros H; [reflexivity|]. cbn [mapM]. rewrite (H x) by now left.
  rewrite IH by (intros y Hy; apply H; now right). reflexivity.
Qed.
Lemma to_path_ext g g' len c : (forall k, k < len -> g k = g' k) -> to_path g len c = to_path g' len c.
Proof.
  intros H. unfold to_path. destruct (Nat.eqb_spec len 0) as [|N]; [reflexivity|].
  assert (B : forall j, j < len / 3 -> 3 * j + 2 < len).
  { intros j Hj. pose proof (Nat.div_mod len 3). lia. }
  rewrite (H 0) by lia.
  rewrite (mapM_ext (fun i => add_element g (i - 1) i) (fun i => add_element g' (i - 1) i)).
  2:{ intros i Hi. apply in_seq in Hi. apply (add_element_ext g g' len); auto; apply B; lia. }
  destruct (Nat.eqb_spec (len / 3) 0) as [|N3]; [now rewrite andb_false_r|].
  rewrite (add_element_ext g g' len); auto; apply B; lia.
Qed.
Lemma spline_lerp_eq a b t c : spline_lerp_to_path a b t c = spline_to_path (lerp_points a b t) c.
Proof.
  unfold spline_lerp_to_path, spline_to_path. rewrite <- (lerp_length a b t).
  apply to_path_ext. intros k Hk. now apply lerp_index_lt.
Qed.

(** ** Congruence up to the sign of zero *)
Definition eqR (x y : f64) : Prop := fin x /\ fin y /\ B2R x = B2R y.
Definition eqP (p q : point) : Prop := eqR (px p) (px q) /\ eqR (py p) (py q).
Lemma eqR_same x y : eqR x y -> same_number x y.
Proof. intros (A & B & C). now apply feqb_eq. Qed.
Lemma eqP_same p q : eqP p q -> same_point p q.
Proof. intros [A B]. split; now apply eqR_same. Qed.
Lemma eqR_fadd x x' y y' : mag_le x 1000 -> mag_le y 1000 -> eqR x x' -> eqR y y' -> eqR (fadd x y) (fadd x' y').
Proof.
  intros Mx My (A & B & C) (A' & B' & C').
  assert (Bd : (Rabs (B2R x + B2R y) <= bpow radix2 1023)%R).
  { eapply Rle_trans; [apply Rabs_triang|]. destruct Mx as [_ Mx], My as [_ My].
    apply Rle_trans with (bpow radix2 (1000 + 1)); [rewrite bpow_S; lra|apply bpow_le; lia]. }
  destruct (fadd_R x y A A' Bd) as [E1 F1]. rewrite C, C' in Bd. destruct (fadd_R x' y' B B' Bd) as [E2 F2].
  repeat split; auto. rewrite E1, E2, C, C'. reflexivity.
Qed.
Lemma eqR_feqb x x' y y' : eqR x x' -> eqR y y' -> feqb x y = feqb x' y'.
Proof.
  intros (A & B & C) (A' & B' & C'). apply eq_true_iff_eq. rewrite !feqb_eq by assumption. now rewrite C, C'.
Qed.
Lemma eqP_eqb p p' q q' : eqP p p' -> eqP q q' -> point_eqb p q = point_eqb p' q'.
Proof. intros [A B] [A' B']. unfold point_eqb. f_equal; now apply eqR_feqb. Qed.
Lemma eqR_refl x : fin x -> eqR x x. Proof. repeat split; auto. Qed.
Definition eqPs (a b : list point) : Prop := Forall2 (fun p q => moderate_point p /\ eqP p q) a b.
Lemma eqPs_nth a b i : eqPs a b -> moderate_point (nth i a pt_dflt) /\ eqP (nth i a pt_dflt) (nth i b pt_dflt).
Proof.
  intros H. revert i. induction H as [|p q a b Hp H IH]; intros [|i]; cbn [nth]; auto.
  all: split; [split; apply mag_le_0|split; now apply eqR_refl].
Qed.
Lemma eqPs_length a b : eqPs a b -> List.length a = List.length b.
Proof. intros H. induction H; simpl; congruence. Qed.
Lemma eqP_control a b i k : eqPs a b ->
  let f := fun pts : list point => mkPoint (fadd (px (nth k pts pt_dflt)) (px (vertex pts i)))
                            (fadd (py (nth k pts pt_dflt)) (py (vertex pts i))) in
  eqP (f a) (f b).
Proof.
  intros H f. unfold f, vertex. destruct (eqPs_nth a b k H) as [[M1 M2] [E1 E2]].
  destruct (eqPs_nth a b (3 * i) H) as [[M3 M4] [E3 E4]].
  split; cbn [px py]; apply eqR_fadd; auto.
Qed.
Lemma seg_cong a b i j : eqPs a b -> same_element (seg a i j) (seg b i j).
Proof.
  intros H. unfold seg.
  assert (C0 : eqP (out_control a i) (out_control b i)) by exact (eqP_control a b i (3 * i + 2) H).
  assert (C1 : eqP (in_control a j) (in_control b j)) by exact (eqP_control a b j (3 * j + 1) H).
  destruct (eqPs_nth a b (3 * i) H) as [_ V0]. destruct (eqPs_nth a b (3 * j) H) as [_ V1].
  change (eqP (vertex a i) (vertex b i)) in V0. change (eqP (vertex a j) (vertex b j)) in V1.
  rewrite (eqP_eqb _ _ _ _ C0 V0), (eqP_eqb _ _ _ _ C1 V1).
  destruct (_ && _); cbn [same_element]; auto using eqP_same.
Qed.
Lemma Forall2_map_same {A B} (R : B -> B -> Prop) (f g : A -> B) l :
  (forall x, R (f x) (g x)) -> Forall2 R (map f l) (map g l).
Proof. intros H. induction l; constructor; auto. Qed.
Lemma path_of_cong a b c : eqPs a b -> Forall2 same_element (path_of a c) (path_of b c).
Proof.
  intros H. unfold path_of. rewrite (eqPs_length _ _ H). constructor.
  - cbn. apply eqP_same, (eqPs_nth a b 0 H).
  - apply Forall2_app.
    + apply Forall2_map_same. intros i. now apply seg_cong.
    + destruct (c && _); repeat constructor. now apply seg_cong.
Qed.

(** ** Interpolation at the ends *)
Lemma lerp1_zero a b t : moderate a -> moderate b -> fin t -> B2R t = 0%R -> eqR (lerp1 a b t) a.
Proof.
  intros Ma Mb Ft Et. unfold lerp1.
  assert (mag_le (fsub b a) (1000 + 1)) as [Fs _] by (apply mag_le_sub; auto; lia).
  destruct (fmul_R t (fsub b a) Ft Fs) as [E F].
  { rewrite Et, Rmult_0_l, Rabs_R0. apply bpow_ge_0. }
  rewrite Et, Rmult_0_l, rnd_0 in E. destruct Ma as [Fa Ba].
  pose proof (fadd_zero a _ Fa F E) as Q.
  pose proof (Bplus_correct 53 1024 _ _ mode_NE a _ Fa F) as P.
  rewrite E, Rplus_0_r, rnd_f64 in P. rewrite Rlt_bool_true in P by apply abs_B2R_lt_emax.
  destruct P as (P1 & P2 & _). repeat split; auto.
Qed.
Lemma lerp1_self a t : moderate a -> fin t -> eqR (lerp1 a a t) a.
Proof.
  intros [Fa Ba] Ft. unfold lerp1. rewrite fsub_diag by assumption.
  assert (Z : fin (fmul t (B754_zero false)) /\ B2R (fmul t (B754_zero false)) = 0%R).
  { destruct t as [| | |]; try discriminate; split; reflexivity. }
  destruct Z as [F E].
  pose proof (Bplus_correct 53 1024 _ _ mode_NE a _ Fa F) as P.
  rewrite E, Rplus_0_r, rnd_f64 in P. rewrite Rlt_bool_true in P by apply abs_B2R_lt_emax.
  destruct P as (P1 & P2 & _). repeat split; auto.
Qed.
Lemma eqR_moderate x y : eqR x y -> moderate y -> moderate x.
Proof. intros (A & B & C) [_ M]. split; auto. now rewrite C. Qed.
Lemma lerp_points_zero a b t : Forall moderate_point a -> Forall moderate_point b ->
  List.length a = List.length b -> fin t -> B2R t = 0%R -> eqPs (lerp_points a b t) a.
Proof.
  intros Ma. revert b. induction Ma as [|p a [Mp1 Mp2] Ma IH]; intros b Mb L Ft Et; [constructor|].
  destruct b as [|q b]; [discriminate|]. inversion Mb as [|? ? [Mq1 Mq2] Mb']; subst.
  unfold lerp_points. cbn [combine map]. constructor.
  - cbn [fst snd]. assert (eqP (point_lerp p q t) p) as Q by (split; apply lerp1_zero; auto).
    split; [split; eapply eqR_moderate; try apply Q; auto|exact Q].
  - apply IH; auto.
Qed.
Lemma lerp_points_self a t : Forall moderate_point a -> fin t -> eqPs (lerp_points a a t) a.
Proof.
  intros Ma Ft. induction Ma as [|p a [Mp1 Mp2] Ma IH]; [constructor|].
  unfold lerp_points. cbn [combine map]. constructor; [|apply IH].
  cbn [fst snd]. assert (eqP (point_lerp p p t) p) as Q by (split; apply lerp1_self; auto).
  split; [split; eapply eqR_moderate; try apply Q; auto|exact Q].
Qed.

(** ** Finiteness *)
Definition mag_point (p : point) (k : Z) : Prop := mag_le (px p) k /\ mag_le (py p) k.
Lemma lerp1_mag a b t : moderate a -> moderate b -> mag_le t 0 -> mag_le (lerp1 a b t) 1002.
Proof.
  intros Ma Mb Mt. unfold lerp1. apply (mag_le_add _ _ 1001); [lia|apply mag_le_weaken with 1000%Z; [lia|auto]|].
  apply (mag_le_mul _ _ 0 1001); [lia|auto|]. apply (mag_le_sub _ _ 1000); auto; lia.
Qed.
Lemma lerp_points_mag a b t : Forall moderate_point a -> Forall moderate_point b -> mag_le t 0 ->
  Forall (fun p => mag_point p 1002) (lerp_points a b t).
Proof.
  intros Ma Mb Mt. unfold lerp_points. apply Forall_map, Forall_forall. intros [p q] Hpq.
  rewrite Forall_forall in Ma, Mb. destruct (Ma p (in_combine_l _ _ _ _ Hpq)). destruct (Mb q (in_combine_r _ _ _ _ Hpq)).
  split; now apply lerp1_mag.
Qed.
Lemma nth_mag pts k i : Forall (fun p => mag_point p k) pts -> mag_point (nth i pts pt_dflt) k.
Proof.
  intros H. destruct (lt_dec i (List.length pts)) as [L|L].
  - rewrite Forall_forall in H. apply H. now apply nth_In.
  - rewrite nth_overflow by lia. split; apply mag_le_0.
Qed.
Lemma seg_finite pts i j : Forall (fun p => mag_point p 1002) pts -> finite_element (seg pts i j).
Proof.
  intros H. unfold seg, out_control, in_control, vertex.
  pose proof (nth_mag pts 1002 (3 * i) H) as [V1 V2]. pose proof (nth_mag pts 1002 (3 * j) H) as [W1 W2].
  pose proof (nth_mag pts 1002 (3 * i + 2) H) as [C1 C2]. pose proof (nth_mag pts 1002 (3 * j + 1) H) as [D1 D2].
  destruct (_ && _); cbn [finite_element]; unfold finite_point; cbn [px py].
  - split; [apply W1|apply W2].
  - repeat split; try (apply W1 || apply W2); eapply (mag_le_add _ _ 1002); eauto; lia.
Qed.
Lemma path_of_finite pts c : Forall (fun p => mag_point p 1002) pts -> Forall finite_element (path_of pts c).
Proof.
  intros H. unfold path_of. constructor.
  - destruct (nth_mag pts 1002 0 H) as [[A _] [B _]]. now split.
  - apply Forall_app. split.
    + apply Forall_map, Forall_forall. intros. now apply seg_finite.
    + destruct (c && _); repeat constructor. now apply seg_finite.
Qed.
