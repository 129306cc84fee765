(** Trimming an outline: which part of it is kept. *)
From Coq Require Import ZArith Reals Bool List Arith Lia Lra.
From Flocq Require Import Core BinarySingleNaN.
From Verif Require Import F64 F64Facts Kurbo Value Animated ValueSpec ValueFacts ValueFacts2 TrimFacts Batch BatchSpec
  BatchFacts TrimSpec Examples PropValue.
Import ListNotations.
Open Scope R_scope.
Open Scope nat_scope.

(** * Floats *)
Lemma fadd_fin x y : fin (fadd x y) -> fin y -> fin x /\ B2R (fadd x y) = rnd (B2R x + B2R y).
Proof.
  intros F Fy. assert (Fx : fin x) by (destruct x as [| | |], y as [| | |]; try discriminate; auto).
  split; [exact Fx|]. pose proof (Bplus_correct 53 1024 _ _ mode_NE x y Fx Fy) as P.
  destruct (Rlt_bool _ _); [apply P|]. destruct P as [P _]. unfold fadd in F.
  destruct (Bplus mode_NE x y) as [| | |]; try discriminate; cbn in P; destruct (Bsign x); discriminate.
Qed.
Lemma eps_fin : fin f_1em9. Proof. vm_compute. reflexivity. Qed.
Lemma eps_pos : (0 < B2R f_1em9)%R.
Proof. assert (H : fltb f0 f_1em9 = true) by (vm_compute; reflexivity). apply fltb_lt in H; [|reflexivity|apply eps_fin]. exact H. Qed.
Lemma eps_small : (B2R f_1em9 <= 1)%R.
Proof.
  assert (H : fleb f_1em9 f1 = true) by (vm_compute; reflexivity). apply fleb_le in H; [|apply eps_fin|reflexivity].
  now rewrite f1_R in H.
Qed.
Lemma big : (bpow radix2 1001 = 2 * bpow radix2 1000 /\ bpow radix2 1001 <= bpow radix2 1023 /\ 1 <= bpow radix2 1000)%R.
Proof.
  split; [rewrite <- bpow_S; reflexivity|]. split; [apply bpow_le; lia|]. change 1%R with (bpow radix2 0). apply bpow_le. lia.
Qed.
Lemma clamp_cases x : is_nan (fclamp f0 f1 x) = true \/
  (fin (fclamp f0 f1 x) /\ (0 <= B2R (fclamp f0 f1 x) <= 1)%R).
Proof.
  unfold fclamp. destruct (fltb x f0) eqn:L.
  - replace (fltb f1 f0) with false by (vm_compute; reflexivity). right. split; [reflexivity|]. cbn. lra.
  - destruct (fltb f1 x) eqn:H.
    + right. split; [reflexivity|]. rewrite f1_R. lra.
    + destruct x as [s|[]| |s m e B]; auto; try discriminate.
      * right. split; [reflexivity|]. cbn. lra.
      * right. split; [reflexivity|]. apply fltb_false in L, H; auto. rewrite f0_R in L. rewrite f1_R in H. lra.
Qed.
Lemma clamp_high x : fleb f1 x = true -> fclamp f0 f1 x = f1 \/ B2R (fclamp f0 f1 x) = 1%R.
Proof.
  intros H. unfold fclamp. destruct (fltb x f0) eqn:L.
  - exfalso. destruct x as [[]|[]| |[]]; cbn in *; discriminate.
  - destruct (fltb f1 x) eqn:G; auto. right. destruct x as [s|[]| |s m e B]; try discriminate.
    apply fltb_false in G; auto. apply fleb_le in H; auto. rewrite f1_R in *. lra.
Qed.
Lemma clamp_pos x : fltb f0 x = false -> is_nan (fclamp f0 f1 x) = true \/ B2R (fclamp f0 f1 x) = 0%R.
Proof.
  intros H. unfold fclamp. destruct (fltb x f0) eqn:L; [right; reflexivity|].
  destruct x as [s|[]| |s m e B]; auto; try discriminate. right.
  apply fltb_false in H, L; auto. rewrite f0_R in *.
  replace (fltb f1 (B754_finite s m e B)) with false; [lra|]. symmetry. apply fltb_false; auto. rewrite f1_R. lra.
Qed.
(** What the condition for drawing a part says. *)
Lemma wide_enough u v : fltb (fadd u f_1em9) v = true -> is_nan u = false /\ is_nan v = false.
Proof.
  intros H. apply fltb_not_nan in H as [H1 H2]. split; auto. destruct u; auto.
Qed.
Lemma wide_lt u v : fin u -> (0 <= B2R u <= 1)%R -> fin v -> fltb (fadd u f_1em9) v = true -> (B2R u < B2R v)%R.
Proof.
  intros Fu Ru Fv H. pose proof eps_pos as P. pose proof eps_small as P'. destruct big as (B1 & B2 & B3).
  destruct (fadd_R u f_1em9 Fu eps_fin) as [Ea Fa]. { apply Rabs_le. lra. }
  apply fltb_lt in H; auto. rewrite Ea in H.
  assert (B2R u <= rnd (B2R u + B2R f_1em9))%R by (apply rnd_ge_f; lra). lra.
Qed.

Section Trim.
  Variable E : Ext.
  Variable all : list path_seg.
  Variables A B : f64.
  Notation n := (List.length all).
  Notation dist := (distance E all).
  Notation len := (x_arclen E).
  Hypothesis Ms : measured E all.
  Hypothesis FA : fin A. Hypothesis RA : (0 <= B2R A <= bpow radix2 1000)%R.
  Hypothesis FB : fin B. Hypothesis RB : (0 <= B2R B <= bpow radix2 1000)%R.

  Lemma len_ok i s : nth_error all i = Some s -> fin (len s) /\ (0 <= B2R (len s))%R.
  Proof.
    intros H. apply nth_error_In in H. destruct (proj1 Ms s H) as [F L]. split; [exact F|].
    apply fleb_le in L; auto.
  Qed.
  Lemma dist_S i s : nth_error all i = Some s -> dist (S i) = fadd (dist i) (len s).
  Proof.
    intros H. unfold distance. assert (X : firstn (S i) all = firstn i all ++ [s]).
    { clear -H. revert i H. induction all as [|x l IH]; intros [|i] H; try discriminate; cbn in *; [now injection H as ->|].
      now rewrite (IH i H). }
    rewrite X, fold_left_app. reflexivity.
  Qed.
  Lemma dist_fin i : i <= n -> fin (dist i).
  Proof.
    intros H. replace i with (n - (n - i)) by lia. induction (n - i) as [|k IH].
    - replace (n - 0) with n by lia. apply Ms.
    - destruct (le_lt_dec n k) as [G|G]; [replace (n - S k) with (n - k) by lia; exact IH|].
      destruct (nth_error all (n - S k)) as [s|] eqn:Hs; [|apply nth_error_None in Hs; lia].
      pose proof (dist_S _ _ Hs) as D. replace (S (n - S k)) with (n - k) in D by lia. rewrite D in IH.
      eapply fadd_fin; [exact IH|]. eapply len_ok; eauto.
  Qed.
  Lemma dist_R i s : nth_error all i = Some s -> B2R (dist (S i)) = rnd (B2R (dist i) + B2R (len s)).
  Proof.
    intros H. assert (i < n) by (apply nth_error_Some; congruence). pose proof (dist_fin (S i) ltac:(lia)) as F.
    rewrite (dist_S i s H) in *. apply fadd_fin; [exact F|]. eapply len_ok; eauto.
  Qed.
  Lemma dist_step i : i < n -> (B2R (dist i) <= B2R (dist (S i)))%R.
  Proof.
    intros H. destruct (nth_error all i) as [s|] eqn:Hs; [|apply nth_error_None in Hs; lia].
    rewrite (dist_R i s Hs). apply rnd_ge_f. pose proof (len_ok i s Hs). lra.
  Qed.
  Lemma dist_mono i j : i <= j -> j <= n -> (B2R (dist i) <= B2R (dist j))%R.
  Proof. intros H. induction H as [|j H IH]; intros L; [lra|]. pose proof (dist_step j ltac:(lia)). specialize (IH ltac:(lia)). lra. Qed.
  Lemma dist_range i : i <= n -> (0 <= B2R (dist i) <= bpow radix2 1000)%R.
  Proof.
    intros H. pose proof (dist_mono 0 i ltac:(lia) H) as L. pose proof (dist_mono i n H ltac:(lia)) as U.
    destruct (proj2 Ms) as [_ M]. apply Rabs_le_inv in M. cbn in L. lra.
  Qed.

  (** The parts as computed. *)
  Definition fromf (i : nat) (s : path_seg) : f64 := if fltb (dist i) A then param E all i s A else f0.
  Definition tof (i : nat) (s : path_seg) : f64 := if fltb B (dist (S i)) then param E all i s B else f1.
  Definition piece (i : nat) (s : path_seg) : option part :=
    if fltb (dist (S i)) (fsub A f_1em9) || fltb (fadd B f_1em9) (dist i) then None
    else if fltb (fadd (fromf i s) f_1em9) (tof i s) then Some (mkPart i (fromf i s) (tof i s)) else None.
  Fixpoint parts (i : nat) (segs : list path_seg) : list part :=
    match segs with [] => [] | s :: l => match piece i s with Some p => p :: parts (S i) l | None => parts (S i) l end end.
  Definition suffix (i : nat) (segs : list path_seg) : Prop := skipn i all = segs.
  Lemma suffix_cons i s l : suffix i (s :: l) -> nth_error all i = Some s /\ suffix (S i) l.
  Proof.
    unfold suffix. intros H. split.
    - rewrite <- (firstn_skipn i all), H. assert (List.length (firstn i all) = i).
      { apply firstn_length_le. assert (List.length (skipn i all) = S (List.length l)) by now rewrite H.
        rewrite skipn_length in H0. lia. }
      rewrite nth_error_app2 by lia. now rewrite H0, Nat.sub_diag.
    - revert H. clear. revert i. induction all as [|x a IH]; intros [|i] H; cbn in *; try discriminate.
      + now injection H.
      + now apply IH.
  Qed.
  Lemma parts_in i segs p : suffix i segs ->
    (In p (parts i segs) <-> exists k s, i <= k /\ nth_error all k = Some s /\ piece k s = Some p).
  Proof.
    revert i. induction segs as [|s l IH]; intros i Su.
    - split; [intros []|]. intros (k & s & L & H & _). apply (f_equal (fun x => nth_error x (k - i))) in Su.
      assert (X : nth_error (skipn i all) (k - i) = nth_error all k).
      { rewrite <- (firstn_skipn i all) at 2. assert (k < n) by (apply nth_error_Some; congruence).
        rewrite nth_error_app2; rewrite firstn_length_le; try lia. reflexivity. }
      rewrite X, H in Su. destruct (k - i); discriminate.
    - destruct (suffix_cons i s l Su) as [Hs Su']. specialize (IH (S i) Su'). cbn [parts].
      assert (G : In p (parts (S i) l) \/ piece i s = Some p <->
                  exists k s, i <= k /\ nth_error all k = Some s /\ piece k s = Some p).
      { rewrite IH. split.
        - intros [(k & s' & L & H)|H]; [exists k, s'; split; [lia|exact H]|exists i, s; auto].
        - intros (k & s' & L & H1 & H2). destruct (Nat.eq_dec k i) as [->|N].
          + right. congruence. + left. exists k, s'. split; [lia|auto]. }
      rewrite <- G. destruct (piece i s) as [q|]; cbn [In].
      + split; [intros [->|]; auto|intros [|[= ->]]; auto].
      + split; [auto|intros [|]; [auto|discriminate]].
  Qed.

  Lemma after_later i k s : i <= k -> nth_error all k = Some s -> fltb (fadd B f_1em9) (dist i) = true -> piece k s = None.
  Proof.
    intros L Hk H. unfold piece. assert (k < n) by (apply nth_error_Some; congruence).
    assert (G : fltb (fadd B f_1em9) (dist k) = true).
    { pose proof eps_pos. pose proof eps_small. destruct big as (B1 & B2 & B3).
      destruct (fadd_R B f_1em9 FB eps_fin) as [_ Fa]. { apply Rabs_le. lra. }
      apply fltb_lt in H; [|exact Fa|apply dist_fin; lia]. apply fltb_lt; [exact Fa|apply dist_fin; lia|].
      pose proof (dist_mono i k L ltac:(lia)). lra. }
    now rewrite G, orb_true_r.
  Qed.
  Lemma parts_none i segs : suffix i segs -> (forall k s, i <= k -> nth_error all k = Some s -> piece k s = None) ->
    parts i segs = [].
  Proof.
    intros Su H. destruct (parts i segs) as [|p l] eqn:P; [reflexivity|].
    assert (I : In p (parts i segs)) by (rewrite P; now left). apply (parts_in i segs p Su) in I as (k & s & L & Hk & Hp).
    rewrite (H k s L Hk) in Hp. discriminate.
  Qed.
  Lemma seg_el_element s : seg_el s = element s. Proof. now destruct s. Qed.
  Lemma seg_start_origin s : seg_start s = origin s. Proof. now destruct s. Qed.
  Lemma trim_segs_parts : forall segs i nm, suffix i segs ->
    trim_segs E A B (dist i) nm segs =
    match parts i segs with
    | [] => []
    | p :: _ => (if nm then [MoveTo (origin (curve E all p))] else []) ++
                map (fun p => element (curve E all p)) (parts i segs)
    end.
  Proof.
    induction segs as [|s l IH]; intros i nm Su; [reflexivity|].
    destruct (suffix_cons i s l Su) as [Hs Su']. cbn [trim_segs parts].
    rewrite <- (dist_S i s Hs). unfold piece.
    destruct (fltb (dist (S i)) (fsub A f_1em9)) eqn:C1; [cbn [orb]; now apply IH|]. cbn [orb].
    destruct (fltb (fadd B f_1em9) (dist i)) eqn:C2.
    - rewrite (parts_none (S i) l Su'); [reflexivity|]. intros k s' L Hk. apply (after_later i k s'); auto; lia.
    - fold (param E all i s A) (param E all i s B) (fromf i s) (tof i s).
      destruct (fltb (fadd (fromf i s) f_1em9) (tof i s)) eqn:C3; [|now apply IH].
      rewrite (IH (S i) false Su'). cbn [app map].
      assert (Cv : curve E all (mkPart i (fromf i s) (tof i s)) = x_subsegment E s (fromf i s) (tof i s)).
      { unfold curve. cbn [pa_ix pa_from pa_to]. now rewrite (nth_error_nth _ _ _ Hs). }
      rewrite Cv, seg_el_element, seg_start_origin. f_equal. f_equal.
      destruct (parts (S i) l); reflexivity.
  Qed.

  (** ** Consecutive segments *)
  Hypothesis La : arc_laws E.
  Lemma piece_some i s p : piece i s = Some p -> p = mkPart i (fromf i s) (tof i s) /\
    fltb (dist (S i)) (fsub A f_1em9) = false /\ fltb (fadd B f_1em9) (dist i) = false /\
    fltb (fadd (fromf i s) f_1em9) (tof i s) = true.
  Proof.
    unfold piece. destruct (fltb (dist (S i)) (fsub A f_1em9)); [discriminate|].
    destruct (fltb (fadd B f_1em9) (dist i)); [discriminate|]. cbn [orb].
    destruct (fltb (fadd (fromf i s) f_1em9) (tof i s)); [|discriminate]. intros [= <-]. auto.
  Qed.
  Lemma param_range i s d : is_nan (param E all i s d) = false -> fin (param E all i s d) /\ (0 <= B2R (param E all i s d) <= 1)%R.
  Proof. unfold param. intros H. destruct (clamp_cases (x_inv_arclen E s (fsub d (dist i)))); [congruence|auto]. Qed.
  Lemma from_range i s : is_nan (fromf i s) = false -> fin (fromf i s) /\ (0 <= B2R (fromf i s) <= 1)%R.
  Proof. unfold fromf. destruct (fltb (dist i) A); [apply param_range|]. intros _. split; [reflexivity|]. cbn. lra. Qed.
  Lemma to_range i s : is_nan (tof i s) = false -> fin (tof i s) /\ (0 <= B2R (tof i s) <= 1)%R.
  Proof. unfold tof. destruct (fltb B (dist (S i))); [apply param_range|]. intros _. split; [reflexivity|]. rewrite f1_R. lra. Qed.
  Lemma piece_params i s p : piece i s = Some p ->
    fin (fromf i s) /\ fin (tof i s) /\ (0 <= B2R (fromf i s) < B2R (tof i s))%R /\ (B2R (tof i s) <= 1)%R.
  Proof.
    intros H. apply piece_some in H as (_ & _ & _ & H). destruct (wide_enough _ _ H) as [N1 N2].
    destruct (from_range i s N1) as [F1 R1]. destruct (to_range i s N2) as [F2 R2].
    pose proof (wide_lt _ _ F1 R1 F2 H). split; [exact F1|]. split; [exact F2|]. lra.
  Qed.
  Lemma sub_ok d i : fin d -> (0 <= B2R d <= bpow radix2 1000)%R -> i <= n ->
    B2R (fsub d (dist i)) = rnd (B2R d - B2R (dist i)) /\ fin (fsub d (dist i)).
  Proof.
    intros F R L. pose proof (dist_range i L). destruct big as (B1 & B2 & B3).
    apply fsub_R; auto using dist_fin. apply Rabs_le. lra.
  Qed.
  (** A segment of which something is kept reaches [A] ... *)
  Lemma reaches i s p : nth_error all i = Some s -> piece i s = Some p -> (B2R A <= B2R (dist (S i)))%R.
  Proof.
    intros Hs Hp. assert (L : i < n) by (apply nth_error_Some; congruence).
    destruct (fltb (dist i) A) eqn:C.
    - pose proof (piece_params i s p Hp) as (_ & _ & P1 & P2). unfold fromf in P1. rewrite C in P1.
      apply fltb_lt in C; [|apply dist_fin; lia|exact FA].
      destruct (sub_ok A i FA RA ltac:(lia)) as [Es Fs]. pose proof (rnd_sub_pos A (dist i) C) as Pos.
      destruct (len_ok i s Hs) as [Fl Rl].
      destruct (Rlt_le_dec (B2R (fsub A (dist i))) (B2R (len s))) as [G|G].
      + rewrite (dist_R i s Hs). apply rnd_ge_f. rewrite Es in G.
        destruct (Rle_lt_dec (B2R A) (B2R (dist i) + B2R (len s))) as [X|X]; [exact X|exfalso].
        assert (B2R (len s) <= rnd (B2R A - B2R (dist i)))%R by (apply rnd_ge_f; lra). lra.
      + exfalso. assert (H1 : fleb f1 (x_inv_arclen E s (fsub A (dist i))) = true).
        { apply (proj2 La); [apply fltb_lt; auto; rewrite Es, f0_R; exact Pos|apply fleb_le; auto]. }
        apply clamp_high in H1. unfold param in P1. destruct H1 as [H1|H1]; rewrite H1 in P1; [rewrite f1_R in P1|]; lra.
    - apply fltb_false in C; [|apply dist_fin; lia|exact FA]. pose proof (dist_step i L). lra.
  Qed.
  (** ... and begins before [B]. *)
  Lemma begins i s p : nth_error all i = Some s -> piece i s = Some p -> (B2R (dist i) <= B2R B)%R.
  Proof.
    intros Hs Hp. assert (L : i < n) by (apply nth_error_Some; congruence).
    destruct (fltb B (dist (S i))) eqn:C.
    - pose proof (piece_params i s p Hp) as (_ & F2 & P1 & P2). unfold tof in P1, F2. rewrite C in P1, F2.
      destruct (Rle_lt_dec (B2R (dist i)) (B2R B)) as [X|X]; [exact X|exfalso].
      destruct (sub_ok B i FB RB ltac:(lia)) as [Es Fs].
      assert (H1 : fltb f0 (x_inv_arclen E s (fsub B (dist i))) = false).
      { apply (proj1 La). apply fleb_le; auto. rewrite Es, f0_R, <- rnd_0. apply rnd_le. lra. }
      apply clamp_pos in H1. unfold param in P1, F2. destruct H1 as [H1|H1]; [|rewrite H1 in P1; lra].
      destruct (fclamp f0 f1 _); discriminate.
    - apply fltb_false in C; [|exact FB|apply dist_fin; lia]. pose proof (dist_step i L). lra.
  Qed.
  Lemma from_later i k s p : nth_error all i = Some s -> piece i s = Some p -> i < k -> k <= n -> fltb (dist k) A = false.
  Proof.
    intros Hs Hp L Lk. apply fltb_false; auto using dist_fin. pose proof (reaches i s p Hs Hp).
    pose proof (dist_mono (S i) k ltac:(lia) Lk). lra.
  Qed.
  Lemma to_earlier i k s p : nth_error all k = Some s -> piece k s = Some p -> i < k -> fltb B (dist (S i)) = false.
  Proof.
    intros Hs Hp L. assert (k < n) by (apply nth_error_Some; congruence).
    apply fltb_false; auto; [apply dist_fin; lia|]. pose proof (begins k s p Hs Hp).
    pose proof (dist_mono (S i) k ltac:(lia) ltac:(lia)). lra.
  Qed.
  (** A segment between [A] and [B] is kept as a whole. *)
  Lemma whole j s : nth_error all j = Some s -> (B2R A <= B2R (dist j))%R -> (B2R (dist (S j)) <= B2R B)%R ->
    piece j s = Some (mkPart j f0 f1).
  Proof.
    intros Hs LA LB. assert (L : j < n) by (apply nth_error_Some; congruence).
    pose proof eps_pos as P. pose proof eps_small as P'. destruct big as (B1 & B2 & B3).
    assert (S1 : fltb (dist (S j)) (fsub A f_1em9) = false).
    { destruct (fsub_R A f_1em9 FA eps_fin) as [Ea Fa]. { apply Rabs_le. lra. }
      apply fltb_false; [apply dist_fin; lia|exact Fa|]. rewrite Ea. apply rnd_le_f.
      pose proof (dist_step j L). lra. }
    assert (S2 : fltb (fadd B f_1em9) (dist j) = false).
    { destruct (fadd_R B f_1em9 FB eps_fin) as [Ea Fa]. { apply Rabs_le. lra. }
      apply fltb_false; [exact Fa|apply dist_fin; lia|]. rewrite Ea. apply rnd_ge_f.
      pose proof (dist_step j L). lra. }
    unfold piece. rewrite S1, S2. cbn [orb]. unfold fromf, tof.
    replace (fltb (dist j) A) with false by (symmetry; apply fltb_false; auto; apply dist_fin; lia).
    replace (fltb B (dist (S j))) with false by (symmetry; apply fltb_false; auto; apply dist_fin; lia).
    replace (fltb (fadd f0 f_1em9) f1) with true by (vm_compute; reflexivity). reflexivity.
  Qed.
  Lemma convex i j k s s' p q : i < j -> j < k -> nth_error all i = Some s -> piece i s = Some p ->
    nth_error all k = Some s' -> piece k s' = Some q ->
    exists sj, nth_error all j = Some sj /\ piece j sj = Some (mkPart j f0 f1).
  Proof.
    intros L1 L2 Hi Hp Hk Hq. assert (k < n) by (apply nth_error_Some; congruence).
    destruct (nth_error all j) as [sj|] eqn:Hj; [|apply nth_error_None in Hj; lia].
    exists sj. split; [reflexivity|]. apply whole; auto.
    - pose proof (reaches i s p Hi Hp). pose proof (dist_mono (S i) j ltac:(lia) ltac:(lia)). lra.
    - pose proof (begins k s' q Hk Hq). pose proof (dist_mono (S j) k ltac:(lia) ltac:(lia)). lra.
  Qed.
  Lemma parts_run : forall segs i, suffix i segs ->
    exists a, map pa_ix (parts i segs) = seq a (List.length (parts i segs)).
  Proof.
    induction segs as [|s l IH]; intros i Su; [now exists 0|].
    destruct (suffix_cons i s l Su) as [Hs Su']. destruct (IH (S i) Su') as (a & Ha). cbn [parts].
    destruct (piece i s) as [p|] eqn:Hp; [|eauto].
    exists i. cbn [map List.length seq]. f_equal; [now destruct (piece_some i s p Hp) as (-> & _)|].
    destruct (parts (S i) l) as [|q ps] eqn:Hps; [reflexivity|].
    assert (Ea : a = S i).
    { cbn in Ha. injection Ha as Hq _. assert (I : In q (parts (S i) l)) by (rewrite Hps; now left).
      apply (parts_in (S i) l q Su') in I as (k & s' & Lk & Hk & Hq'). pose proof (piece_some k s' q Hq') as (Eq & _).
      assert (k = a) by (rewrite <- Hq, Eq; reflexivity). subst k.
      destruct (Nat.eq_dec a (S i)) as [->|N]; [reflexivity|exfalso].
      destruct (convex i (S i) a s s' p q ltac:(lia) ltac:(lia) Hs Hp Hk Hq') as (sj & Hj & Hpj).
      destruct l as [|s2 l2]; [discriminate|]. destruct (suffix_cons (S i) s2 l2 Su') as [Hs2 _].
      cbn [parts] in Hps. replace s2 with sj in Hps by congruence. rewrite Hpj in Hps. injection Hps as <- _.
      cbn in Hq. lia. }
    now rewrite Ea in Ha.
  Qed.
  Lemma parts_keep : keeps E all A B (parts 0 all).
  Proof.
    assert (Su : suffix 0 all) by reflexivity.
    assert (Nth : forall k p, nth_error (parts 0 all) k = Some p -> exists s, nth_error all (pa_ix p) = Some s /\
              piece (pa_ix p) s = Some p).
    { intros k p H. apply nth_error_In in H. apply (parts_in 0 all p Su) in H as (i & s & _ & Hs & Hp).
      exists s. destruct (piece_some i s p Hp) as (-> & _). auto. }
    assert (Ord : forall k k' p q, k < k' -> nth_error (parts 0 all) k = Some p -> nth_error (parts 0 all) k' = Some q ->
              pa_ix p < pa_ix q).
    { intros k k' p q L Hp Hq. destruct (parts_run all 0 Su) as (a & Ha).
      assert (X : forall k p, nth_error (parts 0 all) k = Some p -> pa_ix p = a + k).
      { intros j r Hr. apply (map_nth_error pa_ix) in Hr as Hr'. rewrite Ha in Hr'.
        assert (Lj : j < List.length (parts 0 all)) by (apply nth_error_Some; congruence).
        apply nth_error_nth with (d := 0) in Hr'. rewrite seq_nth in Hr' by exact Lj. lia. }
      rewrite (X k p Hp), (X k' q Hq). lia. }
    constructor.
    - destruct (parts_run all 0 Su) as (a & Ha). eauto.
    - intros p Hin. apply (parts_in 0 all p Su) in Hin as (i & s & _ & Hs & Hp).
      destruct (piece_some i s p Hp) as (-> & N1 & N2 & W). cbn [pa_ix pa_from pa_to]. exists s. split; [exact Hs|].
      destruct (piece_params i s _ Hp) as (F1 & F2 & R1 & R2).
      split; [unfold from_a, fromf; destruct (fltb (dist i) A); auto|].
      split; [unfold to_b, tof; destruct (fltb B (dist (S i))); auto|].
      split; [apply fleb_le; auto; cbn; lra|]. split; [apply fltb_lt; auto; lra|].
      split; [apply fleb_le; auto; rewrite f1_R; lra|]. split; [exact W|]. unfold before, after. rewrite N1, N2. split; discriminate.
    - intros i s u v Hs Nb Na Fu Fv W. apply (parts_in 0 all _ Su). exists i, s. split; [lia|]. split; [exact Hs|].
      unfold before in Nb. unfold after in Na. unfold piece.
      destruct (fltb (dist (S i)) (fsub A f_1em9)); [now destruct Nb|].
      destruct (fltb (fadd B f_1em9) (dist i)); [now destruct Na|]. cbn [orb].
      replace (fromf i s) with u by (unfold fromf; destruct Fu as [[-> ->]|[-> ->]]; reflexivity).
      replace (tof i s) with v by (unfold tof; destruct Fv as [[-> ->]|[-> ->]]; reflexivity).
      now rewrite W.
    - intros k q Hq. destruct (nth_error (parts 0 all) k) as [p|] eqn:Hp.
      + pose proof (Ord k (S k) p q ltac:(lia) Hp Hq) as L. destruct (Nth _ _ Hp) as (s & Hs & Ps).
        destruct (Nth _ _ Hq) as (s' & Hs' & Ps'). destruct (piece_some _ _ _ Ps') as (Eq & _). rewrite Eq. cbn [pa_from].
        unfold fromf. rewrite (from_later _ (pa_ix q) s p Hs Ps L); [reflexivity|].
        assert (pa_ix q < n) by (apply nth_error_Some; congruence). lia.
      + apply nth_error_None in Hp. assert (S k < List.length (parts 0 all)) by (apply nth_error_Some; congruence). lia.
    - intros k p Hp L. destruct (nth_error (parts 0 all) (S k)) as [q|] eqn:Hq; [|apply nth_error_None in Hq; lia].
      pose proof (Ord k (S k) p q ltac:(lia) Hp Hq) as L'. destruct (Nth _ _ Hp) as (s & Hs & Ps).
      destruct (Nth _ _ Hq) as (s' & Hs' & Ps'). destruct (piece_some _ _ _ Ps) as (Eq & _). rewrite Eq. cbn [pa_to].
      unfold tof. now rewrite (to_earlier _ _ s' q Hs' Ps' L').
  Qed.
  Lemma trim_drawn : trim_segs E A B f0 true all = drawn E all (parts 0 all).
  Proof.
    pose proof (trim_segs_parts all 0 true eq_refl) as H. change (dist 0) with f0 in H. rewrite H.
    unfold drawn. destruct (parts 0 all); reflexivity.
  Qed.
End Trim.

(** * The length of an outline *)
Lemma sum_from_zero E segs : 
  fold_left (fun acc s => fadd acc (x_arclen E s)) segs (B754_zero true) = fold_left (fun acc s => fadd acc (x_arclen E s)) segs f0 \/
  (fold_left (fun acc s => fadd acc (x_arclen E s)) segs (B754_zero true) = B754_zero true /\
   fold_left (fun acc s => fadd acc (x_arclen E s)) segs f0 = f0).
Proof.
  induction segs as [|s l IH]; [now right|]. cbn [fold_left].
  destruct (x_arclen E s) as [[]|[]| |sg m e B]; cbn; auto.
Qed.
Lemma total_distance E segs :
  fleb (total_length E segs) f0 = fleb (distance E segs (List.length segs)) f0 /\
  (fleb (total_length E segs) f0 = false -> total_length E segs = distance E segs (List.length segs)).
Proof.
  unfold total_length, distance. rewrite firstn_all. destruct (sum_from_zero E segs) as [->|[-> ->]]; [auto|].
  split; [reflexivity|discriminate].
Qed.
Lemma unit_fin x : fleb f0 x = true -> fleb x f1 = true -> fin x /\ (0 <= B2R x <= 1)%R.
Proof.
  intros H1 H2. assert (F : fin x) by (destruct x as [|[]| |]; auto; discriminate). split; [exact F|].
  apply fleb_le in H1, H2; auto. rewrite f0_R in H1. rewrite f1_R in H2. lra.
Qed.
Lemma le_1 x y : fleb f0 x = true -> fleb x y = true -> fleb y f1 = true -> fleb x f1 = true.
Proof.
  intros H1 H2 H3. assert (Fy : fin y).
  { destruct y as [|[]| |]; auto; try discriminate. destruct x as [[]|[]| |[]]; discriminate. }
  assert (Fx : fin x) by (destruct x as [|[]| |], y as [|[]| |]; auto; discriminate).
  apply fleb_le in H2, H3; auto. apply fleb_le; auto. lra.
Qed.
Lemma scaled_ok d a : moderate d -> (0 <= B2R d)%R -> fin a -> (0 <= B2R a <= 1)%R ->
  fin (fmul a d) /\ (0 <= B2R (fmul a d) <= bpow radix2 1000)%R.
Proof.
  intros [Fd Md] Pd Fa Ra. apply Rabs_le_inv in Md. destruct big as (B1 & B2 & B3).
  assert (P : (0 <= B2R a * B2R d <= B2R d)%R).
  { split; [apply Rmult_le_pos; lra|]. rewrite <- (Rmult_1_l (B2R d)) at 2. apply Rmult_le_compat_r; lra. }
  destruct (fmul_R a d Fa Fd) as [Em Fm]. { apply Rabs_le. lra. }
  split; [exact Fm|]. rewrite Em. split; [apply rnd_nonneg; lra|].
  apply Rle_trans with (B2R d); [apply rnd_le_f; lra|lra].
Qed.
Lemma end_nonneg E segs : measured E segs -> (0 <= B2R (distance E segs (List.length segs)))%R.
Proof. intros M. apply (dist_range E segs M (List.length segs)). lia. Qed.

(** * C69 *)
(** The ranges of a trim, in fractions of the length (C20). *)
Definition ranges (r : (f64 * f64) * option (f64 * f64)) : list (f64 * f64) :=
  match r with (a, None) => [a] | (a, Some b) => [a; b] end.
(** An outline that has a length is cut to the parts between the ends of each
    range, measured along it; an outline without length disappears. *)
Theorem C69_kept : forall E t r els tf segs,
  is_finite (tr_start t) = true -> is_finite (tr_end t) = true -> is_finite (tr_offset t) = true ->
  trim_normalized t = Some r -> trim_is_full (fst r) (snd r) = false ->
  bezpath_ok els = true -> path_segments els = Ok segs -> measured E segs -> arc_laws E ->
  let total := distance E segs (List.length segs) in
  exists out, trim_outline E t (els, tf) = Ok (out, tf) /\
    ((fleb total f0 = true /\ out = []) \/
     (fleb total f0 = false /\
      exists pss, Forall2 (fun ab ps => keeps E segs (fmul (fst ab) total) (fmul (snd ab) total) ps) (ranges r) pss /\
        out = concat (map (drawn E segs) pss))).
Proof.
  intros E t [first second] els tf segs Fs Fe Fo Hn Hf Ho Hs M La total.
  assert (U : forall ab, In ab (ranges (first, second)) ->
            (fin (fst ab) /\ (0 <= B2R (fst ab) <= 1)%R) /\ (fin (snd ab) /\ (0 <= B2R (snd ab) <= 1)%R)).
  { pose proof (C20_ranges t Fs Fe Fo) as C. rewrite Hn in C. destruct first as [s e].
    destruct C as (_ & C1 & C2 & C3 & C4).
    assert (I1 : (fin s /\ (0 <= B2R s <= 1)%R) /\ (fin e /\ (0 <= B2R e <= 1)%R)).
    { assert (S1 : fleb s f1 = true) by (eapply le_1; eauto). pose proof (unit_fin s C1 S1) as [Q1 Q2].
      assert (Fe' : fin e) by (destruct s as [|[]| |], e as [|[]| |]; auto; discriminate).
      split; [split; auto|]. split; [exact Fe'|]. apply fleb_le in C2, C3; auto. rewrite f1_R in C3. lra. }
    destruct second as [[s2 e2]|]; intros ab Hin; cbn in Hin.
    - destruct C4 as (_ & -> & D1 & D2). destruct Hin as [<-|[<-|[]]]; [exact I1|]. cbn [fst snd].
      split; [split; [reflexivity|cbn; lra]|]. apply unit_fin; [exact D1|]. destruct I1 as [[Q1 Q2] _].
      assert (F2 : fin e2) by (destruct e2 as [|[]| |], s as [|[]| |]; auto; discriminate).
      apply fleb_le in D2; auto. apply fleb_le; auto. rewrite f1_R. lra.
    - destruct Hin as [<-|[]]. exact I1. }
  unfold trim_outline. rewrite Hn. cbn [fst snd] in *. rewrite Hf. unfold trim_path, collect_segments.
  rewrite Ho, Hs. cbn [bind]. destruct (total_distance E segs) as [T1 T2]. fold total in T1, T2.
  destruct (fleb (total_length E segs) f0) eqn:L; cbn [orb].
  { exists []. split; [reflexivity|]. left. auto. }
  specialize (T2 eq_refl). rewrite T2.
  destruct (List.length segs =? 0) eqn:L0.
  { exfalso. apply Nat.eqb_eq in L0. destruct segs; [|discriminate]. rewrite T2 in L. discriminate. }
  eexists. split; [reflexivity|]. right. split; [now rewrite <- T1|].
  replace (first :: opt_list second) with (ranges (first, second)) by (destruct second; reflexivity).
  revert U. generalize (ranges (first, second)) as rs. clear -M La. induction rs as [|ab rs IH]; intros U.
  - exists []. split; [constructor|reflexivity].
  - destruct IH as (pss & F & Eq); [intros x Hx; apply U; now right|].
    destruct (U ab ltac:(now left)) as [[Fa Ra] [Fb Rb]].
    destruct (scaled_ok total (fst ab) (proj2 M) (end_nonneg E segs M) Fa Ra) as [FA RA].
    destruct (scaled_ok total (snd ab) (proj2 M) (end_nonneg E segs M) Fb Rb) as [FB RB].
    exists (parts E segs (fmul (fst ab) total) (fmul (snd ab) total) 0 segs :: pss). split.
    + constructor; [|exact F]. now apply parts_keep.
    + cbn [flat_map map concat]. rewrite Eq. f_equal. unfold trim_range. now apply trim_drawn.
Qed.
(** The parts are determined ... *)
Lemma from_a_fun E segs a i s u v : from_a E segs a i s u -> from_a E segs a i s v -> u = v.
Proof. intros [[? ?]|[? ?]] [[? ?]|[? ?]]; congruence. Qed.
Lemma to_b_fun E segs a i s u v : to_b E segs a i s u -> to_b E segs a i s v -> u = v.
Proof. intros [[? ?]|[? ?]] [[? ?]|[? ?]]; congruence. Qed.
Lemma keeps_incl E segs a b ps ps' : keeps E segs a b ps -> keeps E segs a b ps' -> incl ps ps'.
Proof.
  intros K K' p Hp. destruct (kp_part _ _ _ _ _ K p Hp) as (s & Hs & Fu & Fv & _ & _ & _ & W & Nb & Na).
  destruct p as [i u v]. exact (kp_all _ _ _ _ _ K' i s u v Hs Nb Na Fu Fv W).
Qed.
Lemma keeps_index E segs a b ps p q : keeps E segs a b ps -> In p ps -> In q ps -> pa_ix p = pa_ix q -> p = q.
Proof.
  intros K Hp Hq Ei. destruct (kp_part _ _ _ _ _ K p Hp) as (s & Hs & Fu & Fv & _).
  destruct (kp_part _ _ _ _ _ K q Hq) as (s' & Hs' & Fu' & Fv' & _). destruct p as [i u v], q as [i' u' v'].
  cbn [pa_ix pa_from pa_to] in *. subst i'. replace s' with s in * by congruence.
  f_equal; [eapply from_a_fun; eauto|eapply to_b_fun; eauto].
Qed.
Lemma seq_same i n j m : (forall x, In x (seq i n) <-> In x (seq j m)) -> seq i n = seq j m.
Proof.
  intros H. destruct n as [|n].
  - destruct m as [|m]; [reflexivity|]. destruct (proj2 (H j) ltac:(now left)).
  - destruct m as [|m]; [destruct (proj1 (H i) ltac:(now left))|].
    assert (X : forall x, (i <= x < i + S n) <-> (j <= x < j + S m)) by (intros x; rewrite <- !in_seq; apply H).
    pose proof (proj1 (X i) ltac:(lia)). pose proof (proj2 (X j) ltac:(lia)).
    pose proof (proj1 (X (i + n)) ltac:(lia)). pose proof (proj2 (X (j + m)) ltac:(lia)).
    replace j with i by lia. replace m with n by lia. reflexivity.
Qed.
Theorem C69_unique : forall E segs a b ps ps', keeps E segs a b ps -> keeps E segs a b ps' -> ps = ps'.
Proof.
  intros E segs a b ps ps' K K'. pose proof (keeps_incl _ _ _ _ _ _ K K') as I1. pose proof (keeps_incl _ _ _ _ _ _ K' K) as I2.
  assert (Em : map pa_ix ps = map pa_ix ps').
  { destruct (kp_run _ _ _ _ _ K) as (i & Hi), (kp_run _ _ _ _ _ K') as (j & Hj). rewrite Hi, Hj. apply seq_same.
    intros x. rewrite <- Hi, <- Hj, !in_map_iff. split; intros (p & Hp & Hin); eauto. }
  assert (Inj : forall p q, In p ps -> In q ps' -> pa_ix p = pa_ix q -> p = q).
  { intros p q Hp Hq. apply (keeps_index _ _ _ _ _ _ _ K'); auto. }
  clear K K' I1 I2. revert ps' Em Inj. induction ps as [|p ps IH]; intros [|q ps'] Em Inj; try discriminate; [reflexivity|].
  cbn in Em. injection Em as E1 E2. f_equal.
  - apply Inj; [now left|now left|exact E1].
  - apply IH; [exact E2|]. intros x y Hx Hy. apply Inj; now right.
Qed.
(** ... a segment between the two distances is kept as a whole ... *)
Theorem C69_inside : forall E segs a b ps i, measured E segs -> keeps E segs a b ps -> is_finite a = true -> is_finite b = true ->
  (0 <= B2R a <= bpow radix2 1000)%R -> (0 <= B2R b <= bpow radix2 1000)%R ->
  i < List.length segs -> fleb a (distance E segs i) = true -> fleb (distance E segs (S i)) b = true ->
  In (mkPart i f0 f1) ps.
Proof.
  intros E segs a b ps i M K Fa Fb Ra Rb L Ha Hb. destruct (nth_error segs i) as [s|] eqn:Hs; [|apply nth_error_None in Hs; lia].
  assert (Fi : fin (distance E segs i)) by (apply dist_fin; [exact M|lia]).
  assert (Fj : fin (distance E segs (S i))) by (apply dist_fin; [exact M|lia]).
  apply fleb_le in Ha, Hb; auto.
  pose proof (whole E segs a b M Fa Ra Fb Rb i s Hs Ha Hb) as W.
  apply (piece_some E segs a b i s) in W. destruct W as (_ & W1 & W2 & _).
  apply (kp_all _ _ _ _ _ K i s f0 f1 Hs).
  - unfold before. now rewrite W1.
  - unfold after. now rewrite W2.
  - left. split; [|reflexivity]. apply fltb_false; auto.
  - left. split; [|reflexivity]. apply fltb_false; auto.
  - vm_compute. reflexivity.
Qed.

(** ** The segments that are drawn *)
Fixpoint chained (cs : list path_seg) : Prop :=
  match cs with c :: (c' :: _) as l => target c = origin c' /\ chained l | _ => True end.
Lemma segments_element st q c l : segments_from st q (element c :: l) = begin_at q c :: segments_from st (target c) l.
Proof. destruct c; reflexivity. Qed.
Lemma begin_origin c : begin_at (origin c) c = c.
Proof. now destruct c. Qed.
Lemma segments_follow st rest : forall cs q,
  exists q', segments_from st q (map element cs ++ rest) = following q cs ++ segments_from st q' rest.
Proof.
  induction cs as [|c cs IH]; intros q; cbn [map app following]; [now exists q|].
  rewrite segments_element. destruct (IH (target c)) as (q' & ->). now exists q'.
Qed.
Definition outline_of (cs : list path_seg) : list path_el :=
  match cs with [] => [] | c :: _ => MoveTo (origin c) :: map element cs end.
Lemma segments_drawn (css : list (list path_seg)) : forall st lt,
  segments_from st lt (concat (map outline_of css)) = concat (map joined css).
Proof.
  induction css as [|cs css IH]; intros st lt; [reflexivity|]. cbn [map concat].
  destruct cs as [|c cs]; [apply IH|]. cbn [outline_of map].
  change (segments_from (origin c) (origin c) (element c :: (map element cs ++ concat (map outline_of css))) =
          joined (c :: cs) ++ concat (map joined css)). rewrite segments_element, begin_origin. cbn [joined app]. f_equal.
  destruct (segments_follow (origin c) (concat (map outline_of css)) cs (target c)) as (q & ->). now rewrite IH.
Qed.
Lemma chained_joined cs : chained cs -> joined cs = cs.
Proof.
  destruct cs as [|c cs]; [reflexivity|]. cbn [joined]. intros H. f_equal. revert c H.
  induction cs as [|c' cs IH]; intros c H; [reflexivity|]. destruct H as [H1 H2]. cbn [following].
  rewrite H1, begin_origin. f_equal. now apply IH.
Qed.
(** Read back, the outline drawn for any parts has one segment for each part,
    and each range is a sub-path of its own. *)
Theorem C69_joined : forall E segs pss,
  path_segments (concat (map (drawn E segs) pss)) = Ok (concat (map (fun ps => joined (map (curve E segs) ps)) pss)).
Proof.
  intros E segs pss.
  assert (Eq : map (drawn E segs) pss = map outline_of (map (map (curve E segs)) pss)).
  { rewrite map_map. apply map_ext. intros [|p ps]; [reflexivity|]. unfold drawn, outline_of. cbn [map]. now rewrite map_map. }
  assert (Ej : map (fun ps => joined (map (curve E segs) ps)) pss = map joined (map (map (curve E segs)) pss)) by now rewrite map_map.
  rewrite Eq, Ej. unfold path_segments.
  destruct (concat (map outline_of (map (map (curve E segs)) pss))) as [|e l] eqn:D.
  - pose proof (segments_drawn (map (map (curve E segs)) pss) (mkPoint f0 f0) (mkPoint f0 f0)) as S. rewrite D in S. now rewrite <- S.
  - assert (M : exists p, el_end e = Some p).
    { clear -D. induction pss as [|ps pss IH]; [discriminate|]. cbn [map concat] in D. destruct ps as [|q ps]; [now apply IH|].
      cbn in D. injection D as <- _. cbn. eauto. }
    destruct M as (p & Hp). rewrite Hp, <- D. f_equal. apply segments_drawn.
Qed.
Lemma keeps_chained E segs a b ps : keeps E segs a b ps -> end_laws E -> connected segs ->
  chained (map (curve E segs) ps).
Proof.
  intros K [L0 L1] C.
  assert (H : forall k p q, nth_error ps k = Some p -> nth_error ps (S k) = Some q -> target (curve E segs p) = origin (curve E segs q)).
  { intros k p q Hp Hq. assert (Lk : S k < List.length ps) by (apply nth_error_Some; congruence).
    pose proof (kp_first _ _ _ _ _ K k q Hq) as Fq. pose proof (kp_last _ _ _ _ _ K k p Hp Lk) as Tp.
    destruct (kp_run _ _ _ _ _ K) as (i & Hi).
    assert (X : forall j r, nth_error ps j = Some r -> pa_ix r = i + j).
    { intros j r Hr. apply (map_nth_error pa_ix) in Hr as Hr'. rewrite Hi in Hr'.
      assert (Lj : j < List.length ps) by (apply nth_error_Some; congruence).
      apply nth_error_nth with (d := 0) in Hr'. rewrite seq_nth in Hr' by exact Lj. lia. }
    destruct (kp_part _ _ _ _ _ K p (nth_error_In _ _ Hp)) as (s & Hs & _).
    destruct (kp_part _ _ _ _ _ K q (nth_error_In _ _ Hq)) as (s' & Hs' & _).
    unfold curve. rewrite (nth_error_nth _ _ _ Hs), (nth_error_nth _ _ _ Hs'), Fq, Tp, L0, L1.
    apply (C (pa_ix p)); [exact Hs|]. rewrite (X _ _ Hp). rewrite (X _ _ Hq) in Hs'. now replace (S (i + k)) with (i + S k) by lia. }
  clear K C. revert H. induction ps as [|p ps IH]; intros H; [exact I|]. destruct ps as [|q ps]; [exact I|].
  cbn [map chained]. split; [apply (H 0 p q); reflexivity|]. apply IH. intros k x y Hx Hy. apply (H (S k)); assumption.
Qed.
(** For an outline in one piece, the segments drawn are exactly the parts that
    are kept.  Missing: outlines in several pieces, see [C69_refuted]. *)
Theorem C69_only_parts_partial : forall E segs rs pss, end_laws E -> connected segs ->
  Forall2 (fun ab ps => keeps E segs (fst ab) (snd ab) ps) rs pss ->
  path_segments (concat (map (drawn E segs) pss)) = Ok (concat (map (map (curve E segs)) pss)).
Proof.
  intros E segs rs pss L C F. rewrite C69_joined. do 2 f_equal.
  induction F as [|ab ps rs pss K _ IH]; cbn [map]; [reflexivity|]. f_equal; [|exact IH].
  apply chained_joined. eapply keeps_chained; eauto.
Qed.

(** ** Outlines in several pieces *)
(** Straight lines as kurbo treats them when they are parallel to an axis. *)
Definition manhattan (s : path_seg) : f64 :=
  match s with SLine a b => fadd (fabs (fsub (px b) (px a))) (fabs (fsub (py b) (py a))) | _ => f1 end.
Definition E_lines : Ext := {|
  x_sin := x_sin E0; x_cos := x_cos E0; x_tan := x_tan E0; x_powf := x_powf E0; x_hypot := x_hypot E0;
  x_solve_cubic := x_solve_cubic E0; x_rrect_path := x_rrect_path E0; x_ellipse_path := x_ellipse_path E0;
  x_arclen := manhattan;
  x_inv_arclen := fun s l => if fleb l f0 then f0 else if fleb (manhattan s) l then f1 else fdiv l (manhattan s);
  x_subsegment := fun s u v => match s with SLine a b => SLine (point_lerp a b u) (point_lerp a b v) | _ => s end;
  x_color_mul_alpha := x_color_mul_alpha E0; x_brush_mul_alpha := x_brush_mul_alpha E0 |}.
Lemma lines_laws : arc_laws E_lines.
Proof.
  split; intros s l H; cbn [E_lines x_inv_arclen x_arclen].
  - now rewrite H.
  - intros H'. cbn [E_lines x_inv_arclen x_arclen] in H'. rewrite H'. destruct (fleb l f0) eqn:L; [|vm_compute; reflexivity].
    exfalso. clear H'. destruct l as [[]|[]| |[]]; cbn in *; discriminate.
Qed.
(** Lines that are cut exactly at their ends meet [end_laws] as well. *)
Definition E_exact : Ext := {|
  x_sin := x_sin E0; x_cos := x_cos E0; x_tan := x_tan E0; x_powf := x_powf E0; x_hypot := x_hypot E0;
  x_solve_cubic := x_solve_cubic E0; x_rrect_path := x_rrect_path E0; x_ellipse_path := x_ellipse_path E0;
  x_arclen := manhattan; x_inv_arclen := x_inv_arclen E_lines;
  x_subsegment := fun s u v => 
    let at_ t := if feqb t f0 then origin s else if feqb t f1 then target s else point_lerp (origin s) (target s) t in
    SLine (at_ u) (at_ v);
  x_color_mul_alpha := x_color_mul_alpha E0; x_brush_mul_alpha := x_brush_mul_alpha E0 |}.
Lemma exact_laws : arc_laws E_exact /\ end_laws E_exact.
Proof. split; [exact lines_laws|]. split; intros s t; reflexivity. Qed.
Definition stroke_at (y : Z) : list path_el := [MoveTo (zp 0 y); LineTo (zp 10 y)].
Definition two_lines (t : Z) : list shape :=
  [ShGeometry (GFixed (stroke_at 0)); ShGeometry (GFixed (stroke_at 10));
   ShTrim (TrFixed (mkTrim f0 (f_of_Z t) f0)); fill].
Lemma level_0 t : feqb (lerp1 f0 f0 t) (f_of_Z 10) = false.
Proof. destruct t as [[]|[]| |[] m e B]; reflexivity. Qed.
Lemma level_10 t : feqb (lerp1 (f_of_Z 10) (f_of_Z 10) t) f0 = false.
Proof.
  unfold lerp1. replace (fsub (f_of_Z 10) (f_of_Z 10)) with f0 by (symmetry; apply fsub_diag; reflexivity).
  destruct t as [[]|[]| |[] m e B]; vm_compute; reflexivity.
Qed.
(** Two horizontal lines trimmed to 75 %: a line between them is drawn that is
    no part of either. *)
Theorem C69_refuted : exists p segs c,
  layer_paints E_lines affine_identity f1 f0 (two_lines 75) = Ok [p] /\
  path_segments (pt_path p) = Ok segs /\ In c segs /\
  forall s, In s [SLine (zp 0 0) (zp 10 0); SLine (zp 0 10) (zp 10 10)] -> forall u v, c <> x_subsegment E_lines s u v.
Proof.
  assert (T : match layer_paints E_lines affine_identity f1 f0 (two_lines 75) with
              | Ok [p] => match path_segments (pt_path p) with
                          | Ok [_; c] => feqb (py (origin c)) f0 && feqb (py (target c)) (f_of_Z 10)
                          | _ => false end
              | _ => false end = true) by (vm_compute; reflexivity).
  destruct (layer_paints E_lines affine_identity f1 f0 (two_lines 75)) as [[|p [|]]| |]; try discriminate.
  destruct (path_segments (pt_path p)) as [[|c0 [|c [|]]]| |] eqn:Hs; try discriminate.
  exists p, [c0; c], c. split; [reflexivity|]. split; [exact Hs|]. split; [cbn; auto|].
  apply andb_true_iff in T as [T1 T2]. intros s [<-|[<-|[]]] u v ->.
  - change (feqb (lerp1 f0 f0 v) (f_of_Z 10) = true) in T2. rewrite level_0 in T2. discriminate.
  - change (feqb (lerp1 (f_of_Z 10) (f_of_Z 10) u) f0 = true) in T1. rewrite level_10 in T1. discriminate.
Qed.
(** The hypotheses are met: three sides of a square trimmed from 10 % to 60 %. *)
Definition three_sides : list path_el := [MoveTo (zp 0 0); LineTo (zp 10 0); LineTo (zp 10 10); LineTo (zp 0 10)].
Definition sides : list path_seg := [SLine (zp 0 0) (zp 10 0); SLine (zp 10 0) (zp 10 10); SLine (zp 10 10) (zp 0 10)].
Lemma three_connected a b c d : connected [SLine a b; SLine b c; SLine c d].
Proof.
  intros [|[|[|[|i]]]] s s' H H'; cbn in H, H'; try discriminate; injection H as <-; injection H' as <-; reflexivity.
Qed.
Example C69_applies :
  let t := mkTrim (f_of_Z 10) (f_of_Z 60) f0 in
  exists r segs, trim_normalized t = Some r /\ trim_is_full (fst r) (snd r) = false /\ bezpath_ok three_sides = true /\
    path_segments three_sides = Ok segs /\ measured E_lines segs /\ arc_laws E_lines /\ connected segs /\
    match trim_outline E_lines t (three_sides, affine_identity) with
    | Ok (els, _) => List.length els =? 3 | _ => false end = true.
Proof.
  cbv zeta. 
  assert (T : match trim_normalized (mkTrim (f_of_Z 10) (f_of_Z 60) f0) with
              | Some r => negb (trim_is_full (fst r) (snd r)) | None => false end = true) by (vm_compute; reflexivity).
  destruct (trim_normalized (mkTrim (f_of_Z 10) (f_of_Z 60) f0)) as [r|] eqn:Hr; [|discriminate].
  exists r, sides. split; [reflexivity|]. split; [now destruct (trim_is_full (fst r) (snd r))|]. split; [reflexivity|].
  split; [reflexivity|]. split.
  - split.
    + intros s [<-|[<-|[<-|[]]]]; split; vm_compute; reflexivity.
    + match goal with |- moderate ?d => set (d0 := d) end.
      assert (X : fleb d0 (f_of_Z 1024) = true) by (vm_compute; reflexivity).
      assert (Y : fleb f0 d0 = true) by (vm_compute; reflexivity).
      assert (F : fin d0) by (vm_compute; reflexivity). clearbody d0.
      apply fleb_le in X; [|exact F|reflexivity]. apply fleb_le in Y; [|reflexivity|exact F].
      rewrite (proj1 (f_of_Z_R 1024 ltac:(lia))) in X. rewrite f0_R in Y.
      apply mag_le_weaken with (k := 10%Z); [lia|]. split; [exact F|]. apply Rabs_le.
      change (bpow radix2 10) with 1024%R. lra.
  - split; [apply lines_laws|]. split.
    + apply three_connected.
    + vm_compute. reflexivity.
Qed.
Example C69_parts_apply : exists ps, keeps E_exact sides f0 (f_of_Z 15) ps /\ List.length ps = 2 /\
  end_laws E_exact /\ connected sides.
Proof.
  exists (parts E_exact sides f0 (f_of_Z 15) 0 sides). split; [|split; [vm_compute; reflexivity|split; [apply exact_laws|apply three_connected]]].
  destruct (f_of_Z_R 15 ltac:(lia)) as [R15 F15].
  assert (B : (15 <= bpow radix2 1000)%R).
  { apply Rle_trans with (bpow radix2 4); [cbn; lra|]. apply bpow_le. lia. }
  apply parts_keep; [|reflexivity|rewrite f0_R|exact F15|rewrite R15|apply exact_laws]; [|split; [lra|apply bpow_ge_0]|cbn; lra].
  destruct C69_applies as (r & segs & _ & _ & _ & Hs & M & _).
  change (path_segments three_sides) with (Ok sides) in Hs. injection Hs as <-. exact M.
Qed.
