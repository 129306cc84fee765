(** C72: the frame statistics of the example viewer. *)
From Coq Require Import ZArith Reals Bool List Arith String Lia Lra.
From Flocq Require Import Core BinarySingleNaN.
From Verif Require Import F64 F64Facts Kurbo Value Animated ValueFacts ValueFacts2 Stats.
Import ListNotations.
Open Scope list_scope.
Open Scope Z_scope.

(** ** Specification *)
(** All samples of a history, those after the last reset, the last [n] of a
    list, and the total. *)
Definition samples_of (ops : list stats_op) : list Z :=
  flat_map (fun o => match o with OpSample m => [m] | OpClear => [] end) ops.
Fixpoint since_clear (ops : list stats_op) : list Z :=
  match ops with
  | [] => []
  | OpSample m :: ops => if existsb (fun o => match o with OpClear => true | _ => false end) ops then since_clear ops else m :: since_clear ops
  | OpClear :: ops => since_clear ops
  end.
Definition lastn {A} (n : nat) (l : list A) : list A := skipn (List.length l - n) l.
Definition total (l : list Z) : Z := fold_right Z.add 0 l.
(** Frame times of up to two years. *)
Definition plausible (ops : list stats_op) : Prop := forall m, In (OpSample m) ops -> 0 <= m <= 2 ^ 46.
(** [min] and [max] of the samples since the last reset; [u64::MAX] and 0 if
    there are none. *)
Definition extremes (l : list Z) (lo hi : Z) : Prop :=
  match l with
  | [] => lo = u64_max /\ hi = 0
  | _ => In lo l /\ In hi l /\ forall m, In m l -> lo <= m <= hi
  end.

(** ** The window *)
Lemma total_app a b : total (a ++ b) = total a + total b.
Proof. induction a as [|x a IH]; cbn; [reflexivity|]. unfold total in *. rewrite IH. lia. Qed.
Lemma total_bound l : (forall m, In m l -> 0 <= m <= 2 ^ 46) -> 0 <= total l <= Z.of_nat (List.length l) * 2 ^ 46.
Proof.
  induction l as [|x l IH]; intros H; [cbn; lia|]. specialize (IH ltac:(intros; apply H; now right)).
  specialize (H x ltac:(now left)). unfold total in *. cbn [fold_right List.length]. rewrite Nat2Z.inj_succ. lia.
Qed.
Lemma lastn_short {A} n (l : list A) : (List.length l <= n)%nat -> lastn n l = l.
Proof. intros H. unfold lastn. now replace (List.length l - n)%nat with 0%nat by lia. Qed.
Lemma lastn_length {A} n (l : list A) : List.length (lastn n l) = Nat.min n (List.length l).
Proof. unfold lastn. rewrite skipn_length. lia. Qed.
Lemma lastn_In {A} n (l : list A) x : In x (lastn n l) -> In x l.
Proof. unfold lastn. intros H. rewrite <- (firstn_skipn (List.length l - n) l). apply in_or_app. now right. Qed.
Lemma lastn_push {A} n (l : list A) x : (n <= List.length l)%nat -> (0 < n)%nat -> lastn n (l ++ [x]) = tl (lastn n l) ++ [x].
Proof.
  intros H H0. unfold lastn. rewrite app_length. cbn [List.length].
  replace (List.length l + 1 - n)%nat with (S (List.length l - n)) by lia.
  set (k := (List.length l - n)%nat). assert (L : (k < List.length l)%nat) by lia. clearbody k. clear H H0. revert k L.
  induction l as [|y l IH]; intros k L; [cbn in L; lia|]. destruct k as [|k]; [reflexivity|].
  cbn [app]. change (skipn (S (S k)) (y :: l ++ [x])) with (skipn (S k) (l ++ [x])). rewrite IH by (cbn in L; lia). reflexivity.
Qed.
Lemma since_app ops m : since_clear (ops ++ [OpSample m]) = since_clear ops ++ [m].
Proof.
  induction ops as [|o ops IH]; [reflexivity|]. cbn [app since_clear]. destruct o as [m'|]; [|exact IH].
  rewrite existsb_app. cbn [existsb]. rewrite !orb_false_r, IH. now destruct (existsb _ ops).
Qed.
Lemma since_cleared ops : since_clear (ops ++ [OpClear]) = [].
Proof.
  induction ops as [|o ops IH]; [reflexivity|]. cbn [app since_clear]. destruct o as [m'|]; [|exact IH].
  rewrite existsb_app. cbn [existsb]. rewrite orb_true_r. exact IH.
Qed.
Lemma since_In ops m : In m (since_clear ops) -> In (OpSample m) ops.
Proof.
  induction ops as [|o ops IH]; [intros []|]. cbn [since_clear]. destruct o as [m'|]; [|intros H; right; now apply IH].
  destruct (existsb _ ops); [intros H; right; now apply IH|]. intros [<-|H]; [now left|right; now apply IH].
Qed.
Lemma stats_run_app a b s : stats_run s (a ++ b) = let! s := stats_run s a in stats_run s b.
Proof. revert s. induction a as [|o a IH]; intros s; [reflexivity|]. cbn. destruct (stats_step s o); cbn; auto. Qed.

(** No history crashes; the samples are the last hundred, with their number
    and sum, and the extremes are those since the last reset. *)
Theorem C72_window : forall ops, plausible ops -> exists s, stats_run stats_new ops = Ok s /\
  st_samples s = lastn 100 (samples_of ops) /\
  st_count s = Z.of_nat (List.length (st_samples s)) /\ st_sum s = total (st_samples s) /\
  extremes (since_clear ops) (st_min s) (st_max s).
Proof.
  intros ops. induction ops as [|o ops IH] using rev_ind; intros P.
  - exists stats_new. repeat split.
  - destruct IH as (s & R & Hs & Hc & Hm & Hx); [intros m Hin; apply P; apply in_or_app; now left|].
    rewrite stats_run_app, R. cbn [bind].
    assert (Ls : List.length (st_samples s) = Nat.min 100 (List.length (samples_of ops))) by (rewrite Hs; apply lastn_length).
    assert (In_s : forall m, In m (st_samples s) -> 0 <= m <= 2 ^ 46).
    { intros m Hin. rewrite Hs in Hin. apply lastn_In in Hin. apply P, in_or_app. left. unfold samples_of in Hin.
      apply in_flat_map in Hin as ([m'|] & Ho & Hin); [destruct Hin as [<-|[]]; exact Ho|destruct Hin]. }
    pose proof (total_bound _ In_s) as Tb. rewrite <- Hm in Tb.
    assert (Lz : Z.of_nat (List.length (st_samples s)) <= 100) by lia.
    destruct o as [m|].
    + assert (Pm : 0 <= m <= 2 ^ 46) by (apply P, in_or_app; right; now left).
      unfold samples_of. rewrite flat_map_app. fold (samples_of ops). cbn [flat_map app]. rewrite since_app.
      assert (Ex : extremes (since_clear ops ++ [m]) (Z.min (st_min s) m) (Z.max (st_max s) m)).
      { destruct (since_clear ops) as [|x l] eqn:Sc; cbn [app extremes] in *.
        - destruct Hx as [-> ->]. unfold u64_max. rewrite Z.min_r, Z.max_r by lia. split; [now left|]. split; [now left|]. intros m' [<-|[]]; lia.
        - destruct Hx as (X1 & X2 & X3).
          assert (Y : forall z, In z (x :: l) -> In z (x :: l ++ [m])) by (intros z Hz; change (x :: l ++ [m]) with ((x :: l) ++ [m]); apply in_or_app; now left).
          assert (Ym : In m (x :: l ++ [m])) by (change (x :: l ++ [m]) with ((x :: l) ++ [m]); apply in_or_app; right; now left).
          split; [destruct (Z.min_spec (st_min s) m) as [[_ ->]|[_ ->]]; auto|].
          split; [destruct (Z.max_spec (st_max s) m) as [[_ ->]|[_ ->]]; auto|].
          intros z Hz. change (x :: l ++ [m]) with ((x :: l) ++ [m]) in Hz. apply in_app_or in Hz as [Hz|[<-|[]]]; [apply X3 in Hz; lia|lia]. }
      cbn [stats_run stats_step]. unfold add_sample, window_size.
      assert (Ad : u64_add (st_sum s) m = Ok (st_sum s + m)).
      { unfold u64_add. replace (st_sum s + m <=? u64_max) with true; [reflexivity|]. symmetry. apply Z.leb_le. unfold u64_max. lia. }
      rewrite Ad. cbn [bind]. destruct (st_count s <? 100) eqn:C.
      * apply Z.ltb_lt in C. rewrite Hc in C.
        assert (Lw : (List.length (samples_of ops) < 100)%nat) by lia.
        cbn [bind]. eexists. split; [reflexivity|]. cbn [st_samples st_count st_sum st_min st_max].
        rewrite lastn_short in Hs by lia. split; [|split; [|split; [|exact Ex]]].
        -- rewrite lastn_short; [now rewrite Hs|]. rewrite app_length. cbn. lia.
        -- rewrite app_length. cbn. lia.
        -- rewrite total_app, Hm. cbn. lia.
      * apply Z.ltb_ge in C. rewrite Hc in C.
        assert (Lw : (100 <= List.length (samples_of ops))%nat) by lia.
        destruct (st_samples s) as [|o l] eqn:Es; [cbn in *; lia|]. cbn [hd_error tl].
        assert (Su : u64_sub (st_sum s + m) o = Ok (total (l ++ [m]))).
        { unfold u64_sub. rewrite Hm, total_app. unfold total at 1 2. cbn [fold_right]. fold (total l).
          assert (0 <= total l) by (apply total_bound; intros z Hz; apply In_s; now right).
          replace (o <=? o + total l + m) with true by (symmetry; apply Z.leb_le; lia). f_equal. cbn. lia. }
        rewrite Su. cbn [bind]. eexists. split; [reflexivity|]. cbn [st_samples st_count st_sum st_min st_max].
        split; [|split; [|split; [reflexivity|exact Ex]]].
        -- rewrite lastn_push by lia. rewrite <- Hs. reflexivity.
        -- rewrite Hc, app_length. cbn. lia.
    + cbn [stats_run stats_step bind]. eexists. split; [reflexivity|]. cbn [clear_min_and_max st_samples st_count st_sum st_min st_max].
      unfold samples_of. rewrite flat_map_app. cbn [flat_map]. rewrite app_nil_r. split; [exact Hs|]. split; [exact Hc|]. split; [exact Hm|].
      rewrite since_cleared. split; reflexivity.
Qed.

(** ** The graph *)
Open Scope R_scope.
Lemma milli_R : fin f_milli /\ 0 < B2R f_milli <= 1.
Proof.
  assert (F : fin f_milli) by (vm_compute; reflexivity).
  assert (A : fltb f0 f_milli = true) by (vm_compute; reflexivity).
  assert (B : fleb f_milli f1 = true) by (vm_compute; reflexivity).
  apply fltb_lt in A; [|reflexivity|exact F]. apply fleb_le in B; [|exact F|reflexivity]. rewrite f0_R in A. rewrite f1_R in B. auto.
Qed.
Lemma micros_R m : (0 <= m <= 2 ^ 53)%Z -> fin (fmul (f_of_Z m) f_milli) /\ 0 <= B2R (fmul (f_of_Z m) f_milli) <= bpow radix2 53 /\
  ((0 < m)%Z -> 0 < B2R (fmul (f_of_Z m) f_milli)).
Proof.
  intros Hm. destruct (f_of_Z_R m ltac:(lia)) as [R F]. destruct milli_R as [Fm [P L]].
  assert (B : 0 <= IZR m <= bpow radix2 53).
  { split; [apply IZR_le; lia|]. rewrite <- (IZR_Zpower radix2) by lia. apply IZR_le. exact (proj2 Hm). }
  assert (Pr : 0 <= IZR m * B2R f_milli <= bpow radix2 53).
  { split; [apply Rmult_le_pos; lra|]. rewrite <- (Rmult_1_r (bpow radix2 53)). apply Rmult_le_compat; lra. }
  destruct (fmul_R (f_of_Z m) f_milli F Fm) as [E Fe].
  { rewrite R, Rabs_pos_eq by lra. eapply Rle_trans; [apply Pr|apply bpow_le; lia]. }
  rewrite R in E. split; [exact Fe|]. rewrite E. split.
  - split; [apply rnd_nonneg; lra|]. rewrite <- (Rabs_pos_eq (rnd _)) by (apply rnd_nonneg; lra). apply rnd_bpow_le; [lia|].
    rewrite Rabs_pos_eq; lra.
  - intros Hp. apply Rlt_le_trans with (B2R f_milli); [exact P|]. apply rnd_ge_f. rewrite <- (Rmult_1_l (B2R f_milli)) at 1.
    apply Rmult_le_compat_r; [lra|]. apply IZR_le. lia.
Qed.
Lemma bar_unit dmax m : (0 <= m <= 2 ^ 53)%Z -> fin dmax -> 0 < B2R dmax ->
  fin (bar_height dmax m) /\ 0 <= B2R (bar_height dmax m) <= 1.
Proof.
  intros Hm Fd Pd. destruct (micros_R m Hm) as (Fx & [Lx Ux] & _). unfold bar_height. set (x := fmul (f_of_Z m) f_milli) in *.
  assert (Hn : fin (fmin x dmax) /\ 0 <= B2R (fmin x dmax) <= B2R dmax).
  { unfold fmin. assert (N1 : is_nan x = false) by (destruct x; auto; discriminate). assert (N2 : is_nan dmax = false) by (destruct dmax; auto; discriminate).
    rewrite N1, N2. destruct (fltb dmax x) eqn:C; [split; [exact Fd|lra]|]. apply fltb_false in C; auto. }
  destruct Hn as [Fn [Ln Un]]. set (y := fmin x dmax) in *.
  assert (Q : 0 <= B2R y / B2R dmax <= 1).
  { split; [apply Rmult_le_pos; [lra|left; now apply Rinv_0_lt_compat]|]. apply Rmult_le_reg_r with (B2R dmax); [exact Pd|].
    unfold Rdiv. rewrite Rmult_assoc, Rinv_l, Rmult_1_r, Rmult_1_l by lra. exact Un. }
  destruct (fdiv_R y dmax Fn) as [E F]; [lra| |].
  { rewrite Rabs_pos_eq by lra. apply Rle_trans with (bpow radix2 0); [cbn; lra|apply bpow_le; lia]. }
  split; [exact F|]. rewrite E. split; [apply rnd_nonneg; lra|]. rewrite <- f1_R. apply rnd_le_f. rewrite f1_R. lra.
Qed.
Close Scope R_scope.
Lemma round_up_R n : (1 <= n <= 2 ^ 52)%Z -> exists k, round_up n 5 = Ok k /\ (n <= k <= n + 4)%Z.
Proof.
  intros H. unfold round_up, u64_sub, u64_add.
  pose proof (Z.mod_pos_bound (n - 1) 5 ltac:(lia)) as M. pose proof (Z.mod_le (n - 1) 5 ltac:(lia) ltac:(lia)) as M2.
  replace (1 <=? n)%Z with true by (symmetry; apply Z.leb_le; lia). cbn [bind].
  replace ((n - 1) mod 5 <=? n - 1)%Z with true by (symmetry; apply Z.leb_le; lia). cbn [bind].
  replace (n - 1 - (n - 1) mod 5 + 5 <=? u64_max)%Z with true by (symmetry; apply Z.leb_le; unfold u64_max; lia).
  eexists. split; [reflexivity|]. lia.
Qed.
Lemma usize_le (x : f64) k : fin x -> (0 <= k <= 1000)%Z -> (0 <= B2R x <= bpow radix2 k)%R -> (0 <= f_to_usize x <= 2 ^ k)%Z.
Proof.
  intros F Hk [L U].
  assert (T : (0 <= Btrunc x <= 2 ^ k)%Z).
  { pose proof (Btrunc_correct 53 1024 ltac:(reflexivity) x) as B. rewrite round_FIX_IZR in B.
    split; apply le_IZR; rewrite B.
    - apply IZR_le. rewrite Ztrunc_floor by exact L. now apply Zfloor_lub.
    - apply IZR_le. rewrite Ztrunc_floor by exact L. apply le_IZR. apply Rle_trans with (B2R x); [apply Zfloor_lb|].
      change (2 ^ k)%Z with (radix2 ^ k)%Z. rewrite (IZR_Zpower radix2) by lia. exact U. }
  unfold f_to_usize. destruct x; try discriminate; lia.
Qed.
Lemma average_R s : (0 < st_count s <= 100)%Z -> (0 <= st_sum s <= st_count s * 2 ^ 46)%Z ->
  fin (sn_time (snapshot_of s)) /\ (0 <= B2R (sn_time (snapshot_of s)) <= bpow radix2 46)%R.
Proof.
  intros Hc Hs. cbn [snapshot_of sn_time]. destruct milli_R as [Fm [P L]].
  destruct (f_of_Z_R (st_sum s) ltac:(lia)) as [Rs Fs], (f_of_Z_R (st_count s) ltac:(lia)) as [Rc Fc].
  assert (C1 : (1 <= IZR (st_count s))%R) by (apply IZR_le; lia).
  assert (Sb : (0 <= IZR (st_sum s) <= IZR (st_count s) * bpow radix2 46)%R).
  { split; [apply IZR_le; lia|]. rewrite <- (IZR_Zpower radix2) by lia. rewrite <- mult_IZR. apply IZR_le. exact (proj2 Hs). }
  assert (Q : (0 <= IZR (st_sum s) / IZR (st_count s) <= bpow radix2 46)%R).
  { split; [apply Rmult_le_pos; [lra|left; apply Rinv_0_lt_compat; lra]|]. apply Rmult_le_reg_r with (IZR (st_count s)); [lra|].
    unfold Rdiv. rewrite Rmult_assoc, Rinv_l, Rmult_1_r by lra. lra. }
  destruct (fdiv_R (f_of_Z (st_sum s)) (f_of_Z (st_count s)) Fs) as [Eq Fq]; rewrite ?Rs, ?Rc in *; [lra| |].
  { rewrite Rabs_pos_eq by lra. eapply Rle_trans; [apply Q|apply bpow_le; lia]. }
  assert (Q' : (0 <= B2R (fdiv (f_of_Z (st_sum s)) (f_of_Z (st_count s))) <= bpow radix2 46)%R).
  { rewrite Eq. split; [apply rnd_nonneg; lra|]. rewrite <- (Rabs_pos_eq (rnd _)) by (apply rnd_nonneg; lra). apply rnd_bpow_le; [lia|]. rewrite Rabs_pos_eq; lra. }
  set (q := fdiv _ _) in *. assert (Pr : (0 <= B2R q * B2R f_milli <= bpow radix2 46)%R).
  { split; [apply Rmult_le_pos; lra|]. rewrite <- (Rmult_1_r (bpow radix2 46)). apply Rmult_le_compat; lra. }
  destruct (fmul_R q f_milli Fq Fm) as [E F]; [rewrite Rabs_pos_eq by lra; eapply Rle_trans; [apply Pr|apply bpow_le; lia]|].
  split; [exact F|]. rewrite E. split; [apply rnd_nonneg; lra|]. rewrite <- (Rabs_pos_eq (rnd _)) by (apply rnd_nonneg; lra). apply rnd_bpow_le; [lia|]. rewrite Rabs_pos_eq; lra.
Qed.
(** The average frame time, scaled, is below one millisecond. *)
Definition tiny_average (s : stats) : Prop := (f_to_usize (fmul (flit 133334 100000) (sn_time (snapshot_of s))) = 0)%Z.
(** Once something that took time was measured since the last reset, every bar
    is drawn with a height between none and all of the graph.  Missing: tiny
    averages, and no samples since the reset, see [C72_refuted]. *)
Theorem C72_bars_partial : forall ops s, plausible ops -> stats_run stats_new ops = Ok s ->
  (exists m, In m (since_clear ops) /\ (0 < m)%Z) -> ~ tiny_average s ->
  exists hs, bar_heights s = Ok hs /\ List.length hs = List.length (st_samples s) /\
    forall h, In h hs -> is_finite h = true /\ (0 <= B2R h <= 1)%R.
Proof.
  intros ops s P R (m & Hm & Pm) Nt. destruct (C72_window ops P) as (s' & R' & Hs & Hc & Ht & Hx).
  assert (s' = s) as -> by congruence. clear R'.
  assert (In_s : forall z, In z (st_samples s) -> (0 <= z <= 2 ^ 46)%Z).
  { intros z Hin. rewrite Hs in Hin. apply lastn_In in Hin. apply P. unfold samples_of in Hin.
    apply in_flat_map in Hin as ([m'|] & Ho & Hin); [destruct Hin as [<-|[]]; exact Ho|destruct Hin]. }
  pose proof (total_bound _ In_s) as Tb. rewrite <- Ht, <- Hc in Tb.
  assert (Lc : (0 < st_count s <= 100)%Z).
  { rewrite Hc, Hs, lastn_length. assert (0 < List.length (samples_of ops))%nat; [|lia].
    apply since_In in Hm. destruct (samples_of ops) eqn:E; [|cbn; lia]. exfalso.
    assert (X : In m (samples_of ops)) by (apply in_flat_map; exists (OpSample m); split; [exact Hm|now left]). now rewrite E in X. }
  assert (Mx : (0 < st_max s <= 2 ^ 46)%Z).
  { destruct (since_clear ops) as [|x l] eqn:Sc; [destruct Hm|]. cbn [extremes] in Hx. destruct Hx as (_ & X2 & X3).
    pose proof (X3 m Hm). rewrite <- Sc in X2. apply since_In, P in X2. lia. }
  destruct (average_R s Lc Tb) as [Fa Ra].
  assert (D : exists d, display_max (snapshot_of s) = Ok d /\ fin d /\ (0 < B2R d)%R).
  { unfold display_max. destruct (fltb _ _).
    - set (u := f_to_usize _) in *. assert (Hu : (1 <= u <= 2 ^ 52)%Z).
      { unfold tiny_average in Nt. fold u in Nt.
        assert (Fl : fin (flit 133334 100000)) by (vm_compute; reflexivity).
        assert (Bl : (0 <= B2R (flit 133334 100000) <= 2)%R).
        { assert (A : fleb f0 (flit 133334 100000) = true) by (vm_compute; reflexivity).
          assert (B : fleb (flit 133334 100000) (f_of_Z 2) = true) by (vm_compute; reflexivity).
          apply fleb_le in A; [|reflexivity|exact Fl]. apply fleb_le in B; [|exact Fl|reflexivity]. rewrite f0_R in A.
          rewrite (proj1 (f_of_Z_R 2 ltac:(lia))) in B. lra. }
        set (t := sn_time (snapshot_of s)) in *.
        assert (Pr : (0 <= B2R (flit 133334 100000) * B2R t <= bpow radix2 47)%R).
        { split; [apply Rmult_le_pos; lra|]. replace 47%Z with (46 + 1)%Z by lia. rewrite bpow_S. apply Rmult_le_compat; lra. }
        destruct (fmul_R _ t Fl Fa) as [E F]; [rewrite Rabs_pos_eq by lra; eapply Rle_trans; [apply Pr|apply bpow_le; lia]|].
        assert (Q : (0 <= B2R (fmul (flit 133334 100000) t) <= bpow radix2 47)%R).
        { rewrite E. split; [apply rnd_nonneg; lra|]. rewrite <- (Rabs_pos_eq (rnd _)) by (apply rnd_nonneg; lra). apply rnd_bpow_le; [lia|]. rewrite Rabs_pos_eq; lra. }
        pose proof (usize_le _ 47 F ltac:(lia) Q) as U. fold u in U. lia. }
      destruct (round_up_R u Hu) as (k & -> & Hk). cbn [bind]. exists (f_of_Z k). split; [reflexivity|].
      destruct (f_of_Z_R k ltac:(lia)) as [Rk Fk]. split; [exact Fk|]. rewrite Rk. apply IZR_lt. lia.
    - eexists. split; [reflexivity|]. cbn [snapshot_of sn_max]. destruct (micros_R (st_max s) ltac:(lia)) as (F & _ & Pp).
      split; [exact F|]. apply Pp. lia. }
  destruct D as (d & Ed & Fd & Pd). unfold bar_heights. rewrite Ed. cbn [bind]. eexists. split; [reflexivity|].
  split; [apply map_length|]. intros h Hin. apply in_map_iff in Hin as (z & <- & Hz). apply bar_unit; auto.
  specialize (In_s z Hz). lia.
Qed.
(** Full claim: without these conditions.  It is false: 99 frames of 0.1 ms and
    one of 10 ms crash the viewer, and right after a reset the bars have no
    height at all (NaN). *)
Definition fast_frames : list stats_op := repeat (OpSample 100) 99 ++ [OpSample 10000].
Theorem C72_refuted :
  (exists s, plausible fast_frames /\ stats_run stats_new fast_frames = Ok s /\ bar_heights s = Panic) /\
  (exists s hs, stats_run stats_new [OpSample 16000; OpClear] = Ok s /\ bar_heights s = Ok hs /\ exists h, In h hs /\ is_nan h = true).
Proof.
  split.
  - assert (P : plausible fast_frames).
    { intros m Hin. apply in_app_or in Hin as [Hin|[E|[]]]; [apply repeat_spec in Hin|]; [injection Hin as ->|injection E as <-]; lia. }
    assert (X : match stats_run stats_new fast_frames with Ok s => match bar_heights s with Panic => true | _ => false end | _ => false end = true)
      by (vm_compute; reflexivity).
    destruct (stats_run stats_new fast_frames) as [s| |]; try discriminate. exists s. split; [exact P|]. split; [reflexivity|].
    destruct (bar_heights s); [discriminate|reflexivity|discriminate].
  - assert (X : match stats_run stats_new [OpSample 16000; OpClear] with
                | Ok s => match bar_heights s with Ok (h :: _) => is_nan h | _ => false end | _ => false end = true) by (vm_compute; reflexivity).
    destruct (stats_run stats_new [OpSample 16000; OpClear]) as [s| |]; try discriminate. exists s.
    destruct (bar_heights s) as [[|h hs]| |]; try discriminate. exists (h :: hs). split; [reflexivity|]. split; [reflexivity|].
    exists h. split; [now left|exact X].
Qed.
Example C72_applies : exists s, plausible [OpClear; OpSample 16000; OpSample 17000] /\
  stats_run stats_new [OpClear; OpSample 16000; OpSample 17000] = Ok s /\ ~ tiny_average s /\ st_samples s = [16000; 17000]%Z.
Proof.
  eexists. split; [|split; [reflexivity|]].
  - intros m [E|[E|[E|[]]]]; try discriminate; injection E as <-; lia.
  - split; [|reflexivity]. unfold tiny_average. intros E.
    assert (X : (f_to_usize (fmul (flit 133334 100000) (sn_time (snapshot_of (mkStats 2 33000 16000 17000 [16000; 17000])))) =? 0)%Z = false) by (vm_compute; reflexivity).
    apply Z.eqb_neq in X. apply X. exact E.
Qed.
