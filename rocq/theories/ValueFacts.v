From Coq Require Import ZArith Reals Bool List Arith Lia Lra.
From Flocq Require Import Core BinarySingleNaN.
From Verif Require Import F64 F64Facts Kurbo Value Animated ValueSpec.
Import ListNotations.
Open Scope nat_scope.

(** ** Binary search *)
Section Search.
  Variable f : nat -> comparison.
  Variable n : nat.
  Hypothesis down : forall i j, i < j < n -> f j = Lt -> f i = Lt.
  Hypothesis up : forall i j, i < j < n -> f i = Gt -> f j = Gt.
  Lemma bs_loop_spec : forall fuel base size,
    size <= fuel -> 1 <= size -> base + size <= n ->
    (base = 0 \/ f base <> Gt) -> (forall j, base + size <= j < n -> f j = Gt) ->
    let r := bs_loop fuel f base size in
    r < n /\ (r = 0 \/ f r <> Gt) /\ (forall j, r < j < n -> f j = Gt).
  Proof.
    induction fuel as [|fuel IH]; intros base size Hf H1 Hn Hb Hg; [lia|]. cbn [bs_loop].
    destruct (Nat.ltb_spec 1 size) as [Hs|Hs].
    - assert (Hh : 1 <= size / 2 <= size - 1).
      { pose proof (Nat.div_lt size 2). pose proof (Nat.div_le_lower_bound size 2 1). lia. }
      destruct (f (base + size / 2)) eqn:Em.
      + apply IH; try lia. { right. congruence. } { intros j Hj. apply Hg. lia. }
      + apply IH; try lia. { right. congruence. } { intros j Hj. apply Hg. lia. }
      + apply IH; try lia; auto. intros j Hj.
        destruct (Nat.eq_dec j (base + size / 2)) as [->|]; [exact Em|].
        destruct (le_lt_dec (base + size) j); [apply Hg; lia|].
        eapply up; [|exact Em].
        assert (size / 2 <= size - size / 2).
        { pose proof (Nat.div_mod size 2). pose proof (Nat.mod_upper_bound size 2). lia. }
        lia.
    - replace size with 1 in * by lia. repeat split; auto; try lia. intros j Hj. apply Hg. lia.
  Qed.
  Lemma binary_search_spec :
    match binary_search f n with
    | Found i => i < n /\ f i = Eq /\ (forall j, i < j < n -> f j = Gt)
    | Insert i => i <= n /\ (forall j, j < i -> f j = Lt) /\ (forall j, i <= j < n -> f j = Gt)
    end.
  Proof.
    unfold binary_search. destruct (Nat.eqb_spec n 0) as [->|Hn].
    - repeat split; intros; lia.
    - destruct (bs_loop_spec n 0 n) as (Hr & Hz & Hg); [lia|lia|lia|now left|intros; lia|].
      set (r := bs_loop n f 0 n) in *. cbv zeta. destruct (f r) eqn:Er.
      + auto.
      + repeat split; try lia.
        * intros j Hj. destruct (Nat.eq_dec j r) as [->|]; [exact Er|]. eapply down; [|exact Er]. lia.
        * intros j Hj. apply Hg. lia.
      + destruct Hz as [Hz|Hz]; [|congruence]. repeat split; try lia.
        intros j Hj. destruct (Nat.eq_dec j r) as [->|]; [exact Er|]. eapply up; [|exact Er]. lia.
  Qed.
End Search.

(** ** Bracket selection *)
Section Bracket.
  Variable times : list time.
  Variable frame : f64.
  Hypothesis Inc : sorted_times times.
  Hypothesis Fin : finite_times times.
  Hypothesis Ff : is_finite frame = true.
  Lemma time_fin i : i < List.length times -> is_finite (time_at times i) = true.
  Proof. intros H. unfold time_at. unfold finite_times in Fin. rewrite Forall_forall in Fin. apply Fin. now apply nth_In. Qed.
  Lemma sorted_R i j : i < j < List.length times -> (B2R (time_at times i) <= B2R (time_at times j))%R.
  Proof. intros H. apply fleb_le; try (apply time_fin; lia). now apply Inc. Qed.
  Definition cmp i := cmp_frame (t_frame (nth i times time_dflt)) frame.
  Lemma cmp_spec i : i < List.length times ->
    match cmp i with
    | Lt => B2R (time_at times i) < B2R frame
    | Gt => B2R frame < B2R (time_at times i)
    | Eq => B2R (time_at times i) = B2R frame
    end%R.
  Proof.
    intros H. pose proof (time_fin i H) as F. unfold cmp, cmp_frame. fold (time_at times i).
    destruct (fltb (time_at times i) frame) eqn:E1; [now apply fltb_lt in E1|].
    destruct (fltb frame (time_at times i)) eqn:E2; [now apply fltb_lt in E2|].
    apply fltb_false in E1, E2; auto. lra.
  Qed.
  Lemma cmp_of i : i < List.length times ->
    ((B2R (time_at times i) < B2R frame)%R -> cmp i = Lt) /\ ((B2R frame < B2R (time_at times i))%R -> cmp i = Gt).
  Proof. intros H. pose proof (cmp_spec i H). destruct (cmp i); split; intros; auto; lra. Qed.
  Lemma bracket_sorted : times <> [] ->
    exists i, surrounds times frame i /\
      frames_and_weight times frame =
      Some ((i, next_key times i),
            fclamp f0 f1 (fdiv (fsub frame (time_at times i))
                               (fsub (time_at times (next_key times i)) (time_at times i))),
            segment_easing (nth i times time_dflt), t_hold (nth i times time_dflt)).
  Proof.
    intros Hne. assert (Hl : List.length times <> 0) by (destruct times; [congruence|discriminate]).
    unfold frames_and_weight. rewrite (proj2 (Nat.eqb_neq _ _) Hl).
    pose proof (binary_search_spec cmp (List.length times)) as S.
    fold cmp.
    assert (D : forall i j, i < j < List.length times -> cmp j = Lt -> cmp i = Lt).
    { intros i j H E. pose proof (cmp_spec j ltac:(lia)) as C. rewrite E in C.
      apply cmp_of; [lia|]. pose proof (sorted_R i j H). lra. }
    assert (U : forall i j, i < j < List.length times -> cmp i = Gt -> cmp j = Gt).
    { intros i j H E. pose proof (cmp_spec i ltac:(lia)) as C. rewrite E in C.
      apply cmp_of; [lia|]. pose proof (sorted_R i j H). lra. }
    specialize (S D U).
    assert (G : forall i, i < List.length times -> surrounds times frame i ->
      exists i', surrounds times frame i' /\
      (let ix0 := Nat.min i (List.length times - 1) in
       let ix1 := Nat.min (ix0 + 1) (List.length times - 1) in
       let t0 := nth ix0 times time_dflt in
       let t1 := nth ix1 times time_dflt in
       let o := match t_out t0 with Some o => o | None => mkHandle f0 f0 end in
       let i := match t_in t0 with Some i => i | None => mkHandle f1 f1 end in
       let t := fdiv (fsub frame (t_frame t0)) (fsub (t_frame t1) (t_frame t0)) in
       Some ((ix0, ix1), fclamp f0 f1 t, mkEasing o i, t_hold t0)) =
      Some ((i', next_key times i'),
            fclamp f0 f1 (fdiv (fsub frame (time_at times i'))
                               (fsub (time_at times (next_key times i')) (time_at times i'))),
            segment_easing (nth i' times time_dflt), t_hold (nth i' times time_dflt))).
    { intros i Hi Hs. exists i. split; [exact Hs|]. cbv zeta. unfold time_at, next_key, segment_easing.
      rewrite (Nat.min_l i) by lia. rewrite Nat.add_1_r. reflexivity. }
    destruct (binary_search cmp (List.length times)) as [i|i].
    - destruct S as (Hi & He & Hg). apply G; [exact Hi|]. pose proof (cmp_spec i Hi) as C. rewrite He in C.
      split; [exact Hi|]. split.
      + right. apply fleb_le; auto using time_fin. lra.
      + intros Hs. apply fltb_lt; auto using time_fin. pose proof (cmp_spec (S i) Hs) as C'.
        rewrite Hg in C' by lia. exact C'.
    - destruct S as (Hi & Hlt & Hgt). apply G; [lia|]. split; [lia|]. split.
      + destruct i as [|i]; [now left|]. right. replace (S i - 1) with i by lia.
        apply fleb_le; auto; [apply time_fin; lia|]. pose proof (cmp_spec i ltac:(lia)) as C.
        rewrite Hlt in C by lia. lra.
      + intros Hs. apply fltb_lt; auto using time_fin.
        pose proof (cmp_spec (S (i - 1)) Hs) as C. destruct i as [|i].
        * pose proof (Hgt 1 ltac:(simpl in *; lia)) as E. simpl in *. rewrite E in C. exact C.
        * replace (S (S i - 1)) with (S i) in * by lia. rewrite Hgt in C by lia. exact C.
  Qed.
End Bracket.
Lemma inc_R times : increasing times -> finite_times times -> forall i j, i < j < List.length times ->
  (B2R (time_at times i) < B2R (time_at times j))%R.
Proof. intros Inc Fin i j H. apply fltb_lt; try (apply time_fin; auto; lia). now apply Inc. Qed.
Lemma increasing_sorted times : increasing times -> sorted_times times.
Proof.
  intros Inc i j H. specialize (Inc i j H). unfold fltb, fleb, Bltb, Bleb, SpecFloat.SFltb, SpecFloat.SFleb in *.
  destruct (SpecFloat.SFcompare _ _) as [[]|]; congruence.
Qed.
Lemma bracket times frame : increasing times -> finite_times times -> is_finite frame = true -> times <> [] ->
  exists i, surrounds times frame i /\
      frames_and_weight times frame =
      Some ((i, next_key times i),
            fclamp f0 f1 (fdiv (fsub frame (time_at times i))
                               (fsub (time_at times (next_key times i)) (time_at times i))),
            segment_easing (nth i times time_dflt), t_hold (nth i times time_dflt)).
Proof. intros Inc. apply bracket_sorted. now apply increasing_sorted. Qed.

(** Indices are always in range, for arbitrary times and frames. *)
Lemma frames_in_bounds times frame i j w e h :
  frames_and_weight times frame = Some ((i, j), w, e, h) ->
  i < List.length times /\ j = next_key times i /\ e = segment_easing (nth i times time_dflt) /\
  h = t_hold (nth i times time_dflt).
Proof.
  unfold frames_and_weight. destruct (Nat.eqb_spec (List.length times) 0) as [|Hl]; [discriminate|].
  set (ix := match binary_search _ _ with Found ix => ix | Insert ix => ix - 1 end).
  intros [= <- <- <- <- <-]. unfold next_key, segment_easing. repeat split; auto; lia.
Qed.
Lemma frames_some times frame : times <> [] -> exists r, frames_and_weight times frame = Some r.
Proof.
  intros H. unfold frames_and_weight. destruct (Nat.eqb_spec (List.length times) 0) as [E|]; [|eauto].
  destruct times; [congruence|discriminate].
Qed.

(** ** Weights *)
Lemma moderate_mag x : moderate x <-> mag_le x 1000. Proof. reflexivity. Qed.
Lemma fclamp_id x : fin x -> (0 <= B2R x <= 1)%R -> fclamp f0 f1 x = x.
Proof.
  intros F H. unfold fclamp. replace (fltb x f0) with false; [replace (fltb f1 x) with false; [reflexivity|]|].
  - symmetry. apply fltb_false; auto using f1_fin. rewrite f1_R. lra.
  - symmetry. apply fltb_false; auto. rewrite f0_R. lra.
Qed.
Lemma weight_inside a b x : moderate a -> moderate b -> fin x -> (B2R a <= B2R x < B2R b)%R ->
  let w := fclamp f0 f1 (fdiv (fsub x a) (fsub b a)) in
  fin w /\ (0 <= B2R w <= 1)%R /\
  B2R w = rnd (rnd (B2R x - B2R a) / rnd (B2R b - B2R a)).
Proof.
  intros [Fa Ba] [Fb Bb] Fx [H1 H2] w.
  assert (P : (bpow radix2 1001 = 2 * bpow radix2 1000)%R) by (rewrite <- bpow_S; reflexivity).
  assert (Q : (bpow radix2 1001 <= bpow radix2 1023)%R) by (apply bpow_le; lia).
  apply Rabs_le_inv in Ba, Bb.
  destruct (fsub_R b a Fb Fa) as [Ed Fd]. { apply Rabs_le. lra. }
  destruct (fsub_R x a Fx Fa) as [En Fn]. { apply Rabs_le. lra. }
  assert (D0 : (0 < rnd (B2R b - B2R a))%R) by (apply rnd_sub_pos; lra).
  assert (N0 : (0 <= rnd (B2R x - B2R a))%R) by (apply rnd_nonneg; lra).
  assert (N1 : (rnd (B2R x - B2R a) <= rnd (B2R b - B2R a))%R) by (apply rnd_le; lra).
  set (q := (rnd (B2R x - B2R a) / rnd (B2R b - B2R a))%R).
  assert (Hq : (0 <= q <= 1)%R).
  { unfold q. split.
    - apply Rmult_le_pos; [lra|]. left. now apply Rinv_0_lt_compat.
    - apply Rmult_le_reg_r with (rnd (B2R b - B2R a)); [lra|]. unfold Rdiv. rewrite Rmult_assoc, Rinv_l; lra. }
  destruct (fdiv_R (fsub x a) (fsub b a)) as [Eq Fq]; auto.
  { rewrite Ed. lra. }
  { rewrite En, Ed. fold q. rewrite Rabs_pos_eq by lra. apply Rle_trans with (bpow radix2 0); [simpl; lra|apply bpow_le; lia]. }
  rewrite En, Ed in Eq. fold q in Eq.
  assert (Hw : (0 <= B2R (fdiv (fsub x a) (fsub b a)) <= 1)%R).
  { rewrite Eq. split; [apply rnd_nonneg; lra|]. rewrite <- f1_R. apply rnd_le_f. rewrite f1_R. lra. }
  unfold w. rewrite fclamp_id by auto. auto.
Qed.
Lemma fdiv_neg_pos n d : fltb n f0 = true -> fin d -> (0 < B2R d)%R -> fleb (fdiv n d) f0 = true.
Proof.
  intros Hn Fd Hd. unfold fdiv, fleb.
  pose proof (Bdiv_correct 53 1024 _ _ mode_NE n d ltac:(lra)) as P.
  assert (Sd : Bsign d = false).
  { destruct d as [|[]| |[]]; simpl in *; auto; try lra; try discriminate. exfalso. 
    assert (F2R (Float radix2 (Z.neg m) e) < 0)%R by (apply F2R_lt_0; reflexivity). simpl in *. lra. }
  assert (Sn : Bsign n = true) by (destruct n as [[]|[]| |[]]; simpl in *; auto; discriminate).
  rewrite Sd, Sn in P.
  destruct (Rlt_bool _ _).
  - destruct P as (P1 & P2 & P3). destruct n as [[]|[]| |[] m e Hb]; try discriminate.
    + destruct d as [|[]| |[]]; simpl in *; try discriminate; try lra; reflexivity.
    + clear P1. revert P2 P3. generalize (Bdiv mode_NE (B754_finite true m e Hb) d). intros q P2 P3.
      unfold Bleb. destruct q as [s|s| |s m' e' Hb']; simpl in *; try discriminate; auto.
      rewrite P3 by reflexivity. reflexivity.
  - unfold Bleb. rewrite P. reflexivity.
Qed.
Lemma fclamp_low t : fleb t f0 = true -> fleb (fclamp f0 f1 t) f0 = true.
Proof.
  intros H. unfold fclamp. destruct (fltb t f0) eqn:E.
  - reflexivity.
  - destruct (fltb f1 t) eqn:E1; [|exact H]. exfalso.
    destruct t as [[]|[]| |[]]; simpl in *; discriminate.
Qed.
Lemma fclamp_low_range t : fleb t f0 = true -> fin (fclamp f0 f1 t) /\ B2R (fclamp f0 f1 t) = 0%R.
Proof.
  intros H. unfold fclamp. destruct (fltb t f0) eqn:E; [split; reflexivity|].
  destruct t as [[]|[]| |[]]; simpl in *; try discriminate; split; reflexivity.
Qed.
(** Sign of a difference, overflow included. *)
Lemma fsub_sign_neg x a : fin x -> fin a -> (B2R x < B2R a)%R -> fltb (fsub x a) f0 = true.
Proof.
  intros Fx Fa H1. pose proof (Bminus_correct 53 1024 _ _ mode_NE x a Fx Fa) as M.
  pose proof (rnd_sub_pos a x H1) as Hp.
  assert (Hm : rnd (B2R x - B2R a) = (- rnd (B2R a - B2R x))%R).
  { replace (B2R x - B2R a)%R with (- (B2R a - B2R x))%R by lra. apply round_NE_opp. }
  unfold fsub in *. destruct (Rlt_bool_spec (Rabs (rnd (B2R x - B2R a))) (bpow radix2 1024)).
  - destruct M as (M1 & M2 & _). apply fltb_lt; auto. rewrite M1, f0_R. lra.
  - destruct M as [M Ms]. unfold fltb, Bltb. rewrite M.
    destruct (Bsign x) eqn:Sx; [reflexivity|]. exfalso.
    symmetry in Ms. apply negb_true_iff in Ms || apply (f_equal negb) in Ms. rewrite ?negb_involutive in Ms. simpl in Ms.
    (* x >= 0 and a >= 0: |x - a| < 2^1024 rounds below *)
    assert (0 <= B2R x)%R by (destruct x as [|[]| |[]]; simpl in *; try discriminate; try lra; apply F2R_ge_0; simpl; lia).
    assert (Hab : (Rabs (rnd (B2R x - B2R a)) <= Rabs (B2R a))%R).
    { rewrite Hm, Rabs_Ropp. apply abs_round_le_generic; try typeclasses eauto.
      - apply generic_format_abs, format_f64.
      - rewrite !Rabs_pos_eq; lra. }
    pose proof (abs_B2R_lt_emax 53 1024 a). lra.
Qed.
Lemma fsub_sign_pos x a : fin x -> fin a -> (B2R a < B2R x)%R -> fltb f0 (fsub x a) = true.
Proof.
  intros Fx Fa H1. pose proof (Bminus_correct 53 1024 _ _ mode_NE x a Fx Fa) as M.
  pose proof (rnd_sub_pos x a H1) as Hp.
  unfold fsub in *. destruct (Rlt_bool_spec (Rabs (rnd (B2R x - B2R a))) (bpow radix2 1024)).
  - destruct M as (M1 & M2 & _). apply fltb_lt; auto. rewrite M1, f0_R. lra.
  - destruct M as [M Ms]. unfold fltb, Bltb. rewrite M.
    destruct (Bsign x) eqn:Sx; [|reflexivity]. exfalso.
    assert (B2R x <= 0)%R by (destruct x as [|[]| |[]]; simpl in *; try discriminate; try lra; apply F2R_le_0; simpl; lia).
    assert (Hab : (Rabs (rnd (B2R x - B2R a)) <= Rabs (B2R a))%R).
    { apply abs_round_le_generic; try typeclasses eauto.
      - apply generic_format_abs, format_f64.
      - rewrite Rabs_pos_eq by lra. rewrite Rabs_left1 by lra. lra. }
    pose proof (abs_B2R_lt_emax 53 1024 a). lra.
Qed.
Lemma weight_before a b x : moderate a -> moderate b -> fin x -> (B2R x < B2R a)%R -> (B2R a < B2R b)%R ->
  fleb (fdiv (fsub x a) (fsub b a)) f0 = true.
Proof.
  intros [Fa Ba] [Fb Bb] Fx H1 H2.
  assert (P : (bpow radix2 1001 = 2 * bpow radix2 1000)%R) by (rewrite <- bpow_S; reflexivity).
  assert (Q : (bpow radix2 1001 <= bpow radix2 1023)%R) by (apply bpow_le; lia).
  apply Rabs_le_inv in Ba, Bb.
  destruct (fsub_R b a Fb Fa) as [Ed Fd]. { apply Rabs_le. lra. }
  apply fdiv_neg_pos; auto.
  - now apply fsub_sign_neg.
  - rewrite Ed. apply rnd_sub_pos. exact H2.
Qed.
Lemma fdiv_pos_zero n : fltb f0 n = true -> fdiv n (B754_zero false) = B754_infinity false.
Proof. destruct n as [[]|[]| |[]]; simpl; try discriminate; reflexivity. Qed.
Lemma fdiv_neg_zero n : fltb n f0 = true -> fdiv n (B754_zero false) = B754_infinity true.
Proof. destruct n as [[]|[]| |[]]; simpl; try discriminate; reflexivity. Qed.
