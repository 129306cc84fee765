(** The imported keyframes of a property evaluate to the property's value over
    time, although keyframes with two easing handles are imported twice. *)
From Coq Require Import ZArith Reals Bool List Arith Lia Lra.
From Flocq Require Import Core BinarySingleNaN.
From Verif Require Import F64 Kurbo Value Animated F64Facts ValueSpec ValueFacts ValueFacts2 Schema Import ImportSpec
  ImportFacts TimelineSpec.
Import ListNotations.
Open Scope list_scope.
Open Scope nat_scope.

Lemma sorted_app (l m : list time) : sorted_times l -> sorted_times m ->
  (forall t u, In t l -> In u m -> fleb (t_frame t) (t_frame u) = true) -> sorted_times (l ++ m).
Proof.
  intros Sl Sm C i j [H1 H2]. rewrite app_length in H2. unfold time_at.
  destruct (Nat.lt_ge_cases j (List.length l)) as [Lj|Lj].
  - rewrite (@app_nth1 time l m time_dflt j), (@app_nth1 time l m time_dflt i) by lia. apply Sl. lia.
  - rewrite (@app_nth2 time l m time_dflt j) by lia. destruct (Nat.lt_ge_cases i (List.length l)) as [Li|Li].
    + rewrite (@app_nth1 time l m time_dflt i) by lia. apply C; apply nth_In; lia.
    + rewrite (@app_nth2 time l m time_dflt i) by lia. apply Sm. lia.
Qed.
Lemma in_order_tail k ks : in_order (k :: ks) -> in_order ks.
Proof. intros H i j x y L A B. apply (H (S i) (S j)); [lia|exact A|exact B]. Qed.
Lemma in_order_head k ks l : in_order (k :: ks) -> In l ks -> fltb (kf_time k) (kf_time l) = true.
Proof. intros H I. apply In_nth_error in I. destruct I as (n & N). apply (H 0 (S n)); [lia|reflexivity|exact N]. Qed.

Section Groups.
  Context {T : Type} `{L : TweenLaws T}.
  Variable val : keyframe -> T.
  Definition entry_ok (k : keyframe) (e : time * T) : Prop :=
    t_frame (fst e) = kf_time k /\ (t_hold (fst e) = true <-> held k) /\ snd e = val k.
  Definition group_ok (k : keyframe) (g : list (time * T)) : Prop := g <> [] /\ Forall (entry_ok k) g.
  Definition anim_of (flat : list (time * T)) : anim T := mkAnim (map fst flat) (map snd flat).

  Lemma flat_entry ks groups e : Forall2 group_ok ks groups -> In e (List.concat groups) ->
    exists k, In k ks /\ entry_ok k e.
  Proof.
    induction 1 as [|k g ks gs [_ G] F IH]; cbn; [intros []|]. intros I. apply in_app_or in I.
    destruct I as [I|I].
    - exists k. rewrite Forall_forall in G. auto.
    - destruct (IH I) as (l & A & B). eauto.
  Qed.
  Lemma flat_finite ks groups : Forall2 group_ok ks groups -> moderate_keyframes ks ->
    finite_times (map fst (List.concat groups)).
  Proof.
    intros F M. apply Forall_forall. intros t I. apply in_map_iff in I. destruct I as (e & <- & I).
    destruct (flat_entry _ _ _ F I) as (k & K & -> & _). unfold moderate_keyframes in M. rewrite Forall_forall in M.
    apply M, K.
  Qed.
  Lemma flat_sorted ks groups : Forall2 group_ok ks groups -> in_order ks -> moderate_keyframes ks ->
    sorted_times (map fst (List.concat groups)).
  Proof.
    induction 1 as [|k g ks gs [N G] F IH]; intros O M; [intros i j [? Q]; cbn in Q; lia|].
    cbn [List.concat]. rewrite map_app. inversion M as [|? ? Mk M']; subst.
    assert (Gt : forall t, In t (map fst g) -> t_frame t = kf_time k).
    { intros t I. apply in_map_iff in I. destruct I as (e & <- & I). rewrite Forall_forall in G. apply (G e I). }
    apply sorted_app.
    - intros i j [H1 H2]. unfold time_at. rewrite !Gt by (apply nth_In; lia). apply fleb_le; try apply Mk. lra.
    - apply IH; [eapply in_order_tail; eauto|exact M'].
    - intros t u I J. rewrite (Gt t I). apply in_map_iff in J. destruct J as (e & <- & J).
      destruct (flat_entry _ _ _ F J) as (l & Hl & -> & _).
      pose proof (in_order_head _ _ _ O Hl) as Lt. rewrite Forall_forall in M'. specialize (M' l Hl).
      apply fltb_lt in Lt; try apply Mk; try apply M'. apply fleb_le; try apply Mk; try apply M'. lra.
  Qed.
  Lemma last_split {A} (g : list A) : g <> [] -> exists gi e, g = gi ++ [e].
  Proof. intros N. destruct (exists_last N) as (gi & e & ->). eauto. Qed.
  (** where keyframe [k] is in the flattened list *)
  Lemma locate k1 k k2 groups : Forall2 group_ok (k1 ++ k :: k2) groups ->
    exists g1 gi e g2, groups = g1 ++ (gi ++ [e]) :: g2 /\ Forall2 group_ok k1 g1 /\ group_ok k (gi ++ [e]) /\
      Forall2 group_ok k2 g2 /\ List.concat groups = (List.concat g1 ++ gi) ++ e :: List.concat g2 /\ entry_ok k e.
  Proof.
    intros F. apply Forall2_app_inv_l in F. destruct F as (g1 & g' & F1 & F & ->).
    inversion F as [|? g ? g2 G F2]; subst. destruct (last_split g (proj1 G)) as (gi & e & ->).
    exists g1, gi, e, g2. do 4 (split; [auto|]). split.
    - rewrite concat_app. cbn. rewrite <- !app_assoc. reflexivity.
    - destruct G as [_ G]. rewrite Forall_forall in G. apply G. apply in_or_app. right. now left.
  Qed.
  Lemma nth_mid {A} (a b : list A) x d : nth (List.length a) (a ++ x :: b) d = x.
  Proof. rewrite app_nth2, Nat.sub_diag by lia. reflexivity. Qed.
  Lemma nth_error_mid {A} (a b : list A) x : nth_error (a ++ x :: b) (List.length a) = Some x.
  Proof. rewrite nth_error_app2, Nat.sub_diag by lia. reflexivity. Qed.
  Lemma times_mid (A B : list (time * T)) e : nth (List.length A) (map fst (A ++ e :: B)) time_dflt = fst e.
  Proof. rewrite map_app. cbn [map]. rewrite <- (map_length fst A). apply nth_mid. Qed.
  Lemma time_mid (A B : list (time * T)) e : time_at (map fst (A ++ e :: B)) (List.length A) = t_frame (fst e).
  Proof. unfold time_at. now rewrite times_mid. Qed.
  Lemma value_mid (A B : list (time * T)) e : nth_error (map snd (A ++ e :: B)) (List.length A) = Some (snd e).
  Proof. rewrite map_app. cbn [map]. rewrite <- (map_length snd A). apply nth_error_mid. Qed.
  Lemma surrounds_mid (A B : list (time * T)) e frame : fleb (t_frame (fst e)) frame = true ->
    match B with [] => True | e' :: _ => fltb frame (t_frame (fst e')) = true end ->
    surrounds (map fst (A ++ e :: B)) frame (List.length A).
  Proof.
    intros H1 H2. split; [rewrite map_length, app_length; cbn; lia|]. split; [right; now rewrite time_mid|].
    rewrite map_length, app_length. cbn [List.length]. intros H3. destruct B as [|e' B]; [cbn in H3; lia|].
    change (A ++ e :: e' :: B) with (A ++ [e] ++ e' :: B). rewrite app_assoc.
    replace (S (List.length A)) with (List.length (A ++ [e])) by (rewrite app_length; cbn; lia).
    now rewrite time_mid.
  Qed.

  Variable E : Ext.
  Variable ks : list keyframe.
  Variable groups : list (list (time * T)).
  Hypothesis F : Forall2 group_ok ks groups.
  Hypothesis Ord : in_order ks.
  Hypothesis Mod : moderate_keyframes ks.
  Let a : anim T := anim_of (List.concat groups).
  Lemma a_len : List.length (an_values a) = List.length (an_times a).
  Proof. cbn. now rewrite !map_length. Qed.
  Lemma a_fin : finite_times (an_times a). Proof. apply (flat_finite _ _ F Mod). Qed.
  Lemma a_sorted : sorted_times (an_times a). Proof. apply (flat_sorted _ _ F Ord Mod). Qed.
  Lemma ks_fin k : In k ks -> is_finite (kf_time k) = true.
  Proof. intros I. unfold moderate_keyframes in Mod. rewrite Forall_forall in Mod. apply Mod, I. Qed.

  (** two neighbouring keyframes *)
  Lemma split_two i k l : nth_error ks i = Some k -> nth_error ks (S i) = Some l ->
    exists k1 k2, ks = k1 ++ k :: l :: k2.
  Proof.
    clear. revert i. induction ks as [|x m IH]; intros [|i] A B; try discriminate.
    - cbn in A, B. injection A as ->. destruct m as [|y m]; [discriminate|]. cbn in B. injection B as ->.
      exists [], m. reflexivity.
    - destruct (IH i A B) as (k1 & k2 & ->). exists (x :: k1), k2. reflexivity.
  Qed.
  Lemma two_entries i k l : nth_error ks i = Some k -> nth_error ks (S i) = Some l ->
    exists A e e' B g, List.concat groups = A ++ e :: e' :: B /\ entry_ok k e /\ entry_ok l e' /\
      nth_error groups i = Some g /\ exists gi, g = gi ++ [e].
  Proof.
    intros Hk Hl. destruct (split_two i k l Hk Hl) as (k1 & k2 & Q).
    assert (Li : List.length k1 = i).
    { (* keyframes at different times are different *)
      assert (Hi : i < List.length ks) by (apply nth_error_Some; congruence).
      destruct (Nat.lt_trichotomy (List.length k1) i) as [Lt|[Eq|Lt]]; [|exact Eq|]; exfalso;
      assert (X : nth_error ks (List.length k1) = Some k) by (rewrite Q; apply nth_error_mid);
      pose proof (ks_fin k (nth_error_In _ _ Hk)) as Fk;
      [pose proof (Ord _ _ _ _ Lt X Hk) as Y|pose proof (Ord _ _ _ _ Lt Hk X) as Y];
      apply fltb_lt in Y; auto; lra. }
    rewrite Q in F. destruct (locate _ _ _ _ F) as (g1 & gi & e & g2 & G & F1 & _ & F2 & C & Oe).
    inversion F2 as [|? g' ? g2' [N' G'] F2']; subst. clear F2.
    destruct g' as [|e' g']; [congruence|]. inversion G' as [|? ? Oe' _]; subst.
    exists (List.concat g1 ++ gi), e, e', (g' ++ List.concat g2'), (gi ++ [e]).
    split; [rewrite C; reflexivity|]. split; [exact Oe|]. split; [exact Oe'|]. split; [|eauto].
    rewrite (Forall2_len _ _ _ F1). apply nth_error_mid.
  Qed.

  (** evaluation between two entries *)
  Lemma eval_two A e e' B frame d : List.concat groups = A ++ e :: e' :: B -> is_finite frame = true ->
    fleb (t_frame (fst e)) frame = true -> fltb frame (t_frame (fst e')) = true ->
    anim_eval_or E a frame d = tween E (snd e) (snd e')
      (if t_hold (fst e) then f0 else
       fclamp f0 f1 (fdiv (fsub frame (t_frame (fst e))) (fsub (t_frame (fst e')) (t_frame (fst e)))))
      (segment_easing (fst e)).
  Proof.
    intros Q Ff H1 H2. pose proof a_sorted as So. pose proof a_fin as Fi.
    unfold anim_eval_or, anim_eval_inner. unfold a, anim_of in *. cbn [an_times an_values] in *. rewrite Q in *.
    rewrite (select _ _ (List.length A) So Fi Ff) by (apply surrounds_mid; auto).
    assert (N : next_key (map fst (A ++ e :: e' :: B)) (List.length A) = S (List.length A)).
    { unfold next_key. rewrite map_length, app_length. cbn [List.length]. lia. }
    rewrite N, times_mid, time_mid, value_mid.
    change (A ++ e :: e' :: B) with (A ++ [e] ++ e' :: B). rewrite app_assoc.
    replace (S (List.length A)) with (List.length (A ++ [e])) by (rewrite app_length; cbn; lia).
    rewrite time_mid, value_mid. reflexivity.
  Qed.
  (** evaluation at or after the last entry *)
  Lemma eval_end A e frame d : List.concat groups = A ++ [e] -> is_finite frame = true ->
    fleb (t_frame (fst e)) frame = true ->
    exists w, anim_eval_or E a frame d = tween E (snd e) (snd e) w (segment_easing (fst e)) /\
      (t_hold (fst e) = true -> w = f0) /\
      (t_hold (fst e) = false -> fltb (t_frame (fst e)) frame = true -> w = f1).
  Proof.
    intros Q Ff H1. pose proof a_sorted as So. pose proof a_fin as Fi. pose proof a_len as Le.
    assert (Ll : List.length (an_times a) - 1 = List.length A).
    { unfold a, anim_of. cbn [an_times]. rewrite Q, map_length, app_length. cbn. lia. }
    assert (Ne : an_times a <> []).
    { unfold a, anim_of. cbn [an_times]. rewrite Q. destruct A; discriminate. }
    assert (Su : surrounds (an_times a) frame (List.length (an_times a) - 1)).
    { rewrite Ll. unfold a, anim_of. cbn [an_times]. rewrite Q. apply surrounds_mid; auto. }
    assert (Hv : nth_error (an_values a) (List.length (an_times a) - 1) = Some (snd e)).
    { rewrite Ll. unfold a, anim_of. cbn [an_values]. rewrite Q. apply value_mid. }
    assert (Ht : nth (List.length (an_times a) - 1) (an_times a) time_dflt = fst e).
    { rewrite Ll. unfold a, anim_of. cbn [an_times]. rewrite Q. apply times_mid. }
    assert (Ht' : time_at (an_times a) (List.length (an_times a) - 1) = t_frame (fst e)).
    { unfold time_at. now rewrite Ht. }
    destruct (eval_self E a Le So Fi frame Ff (snd e) Su Hv) as (w & Ev & Ew).
    rewrite Ht in Ev, Ew. exists w. unfold anim_eval_or. rewrite Ev. split; [reflexivity|]. split.
    - intros Hh. now rewrite Hh in Ew.
    - intros Hh Lt. rewrite Hh in Ew. rewrite Ew. apply weight_after_last; auto. now rewrite Ht'.
  Qed.
  (** evaluation before the first entry *)
  Lemma eval_start e B frame d : List.concat groups = e :: B -> is_finite frame = true ->
    fltb frame (t_frame (fst e)) = true -> anim_eval_or E a frame d = snd e.
  Proof.
    intros Q Ff H1. pose proof a_sorted as So. pose proof a_fin as Fi. pose proof a_len as Le.
    assert (I0 : In e (List.concat groups)) by (rewrite Q; now left).
    destruct (flat_entry _ _ _ F I0) as (k & Ik & Te & _).
    assert (Md : forall x, In x (List.concat groups) -> moderate (t_frame (fst x))).
    { intros x I. destruct (flat_entry _ _ _ F I) as (k' & Ik' & -> & _). unfold moderate_keyframes in Mod.
      rewrite Forall_forall in Mod. auto. }
    assert (Fe : is_finite (t_frame (fst e)) = true) by (apply Md, I0).
    pose proof H1 as H1'. apply fltb_lt in H1; auto.
    assert (T0 : time_at (an_times a) 0 = t_frame (fst e)) by (unfold a, anim_of; cbn [an_times]; rewrite Q; reflexivity).
    unfold anim_eval_or. rewrite (eval_low E a Le So Fi frame Ff 0 (snd e)); auto.
    - split; [unfold a, anim_of; cbn [an_times]; rewrite Q; cbn; lia|]. split; [now left|]. intros H2.
      pose proof (So 0 1 ltac:(lia)) as Q2. rewrite T0 in Q2.
      assert (F1 : is_finite (time_at (an_times a) 1) = true) by (apply time_fin; auto).
      apply fleb_le in Q2; auto. apply fltb_lt; auto. lra.
    - unfold a, anim_of. cbn [an_values]. rewrite Q. reflexivity.
    - right. rewrite T0.
      assert (Cs : time_at (an_times a) (next_key (an_times a) 0) = t_frame (fst e) \/
                   (B2R (t_frame (fst e)) < B2R (time_at (an_times a) (next_key (an_times a) 0)))%R /\
                   moderate (time_at (an_times a) (next_key (an_times a) 0))).
      { unfold a, anim_of. cbn [an_times]. rewrite Q. unfold next_key. cbn [map List.length]. rewrite map_length.
        destruct B as [|e' B]; [left; reflexivity|]. cbn [List.length Nat.min Nat.sub].
        unfold time_at. cbn [nth map].
        assert (I1 : In e' (List.concat groups)) by (rewrite Q; right; now left).
        destruct (flat_entry _ _ _ F I1) as (k' & Ik' & Te' & _).
        apply In_nth_error in Ik, Ik'. destruct Ik as (n & Nn), Ik' as (m & Nm).
        assert (S01 : fleb (t_frame (fst e)) (t_frame (fst e')) = true).
        { pose proof (So 0 1) as X. unfold a, anim_of in X. cbn [an_times] in X. rewrite Q in X. apply X. cbn. lia. }
        apply fleb_le in S01; auto; [|apply Md, I1].
        destruct (Nat.lt_trichotomy n m) as [Lt|[Eq|Lt]].
        - pose proof (Ord _ _ _ _ Lt Nn Nm) as X. rewrite <- Te, <- Te' in X. right. split; [|apply Md, I1].
          apply fltb_lt in X; auto. apply Md, I1.
        - left. subst m. rewrite Te, Te'. congruence.
        - exfalso. pose proof (Ord _ _ _ _ Lt Nm Nn) as X. rewrite <- Te, <- Te' in X.
          apply fltb_lt in X; auto; [lra|apply Md, I1]. }
      destruct Cs as [->|[Lt Mm]].
      + rewrite fsub_diag by auto. rewrite fdiv_neg_zero by (apply fsub_sign_neg; auto). reflexivity.
      + apply fclamp_low. apply weight_before; auto.
  Qed.

  (** The easing of the last entry of each group, and its handles. *)
  Variable eases : keyframe -> easing -> Prop.
  Hypothesis Ea : Forall2 (fun k g => forall gi e, g = gi ++ [e] ->
    eases k (segment_easing (fst e)) /\ (sane_handles (kf_b k) -> sane_time (fst e))) ks groups.
  Lemma hold_false k e : entry_ok k e -> ~ held k -> t_hold (fst e) = false.
  Proof. intros (_ & Hh & _) N. destruct (t_hold (fst e)); [|reflexivity]. destruct N. now apply Hh. Qed.
  Lemma ease_at i k g gi e : nth_error ks i = Some k -> nth_error groups i = Some g -> g = gi ++ [e] ->
    eases k (segment_easing (fst e)) /\ (sane_handles (kf_b k) -> sane_time (fst e)).
  Proof.
    intros Hk Hg Q. clear - Ea Hk Hg Q. revert i Hk Hg. induction Ea as [|k' g' ks' gs' H' F' IH]; intros [|i] Hk Hg; try discriminate.
    - cbn in Hk, Hg. injection Hk as ->. injection Hg as ->. now apply (H' gi).
    - now apply (IH F' i).
  Qed.
  Lemma last_entry k rest : ks = rest ++ [k] -> exists A e, List.concat groups = A ++ [e] /\ entry_ok k e /\
    (sane_handles (kf_b k) -> sane_time (fst e)).
  Proof.
    intros Q. pose proof F as F'. rewrite Q in F'. destruct (locate _ _ _ _ F') as (g1 & gi & e & g2 & G & F1 & _ & F2 & C & Oe).
    inversion F2; subst g2. cbn in C. exists (List.concat g1 ++ gi), e. split; [exact C|]. split; [exact Oe|].
    apply (ease_at (List.length rest) k (gi ++ [e]) gi e).
    - rewrite Q. apply nth_error_mid.
    - rewrite G, (Forall2_len _ _ _ F1). apply nth_error_mid.
    - reflexivity.
  Qed.
  Lemma groups_follow d : follows E ks val eases (fun frame => anim_eval_or E a frame d).
  Proof.
    constructor.
    - intros k rest frame Ff Q Lt. 
      assert (X : exists e g gs, groups = (e :: g) :: gs /\ entry_ok k e).
      { pose proof F as F'. rewrite Q in F'. clear - F'. inversion F' as [|? g ? gs [N G] F2]; subst.
        destruct g as [|e g]; [congruence|]. inversion G; subst. eauto. }
      destruct X as (e & g & gs & Qg & Te & He & Ve).
      rewrite <- Ve. eapply eval_start; [rewrite Qg; reflexivity|exact Ff|]. now rewrite Te.
    - intros i k l frame Ff Hk Hl [B1 B2] Hh.
      destruct (two_entries i k l Hk Hl) as (A & e & e' & B & g & Q & (Te & He & Ve) & (Te' & He' & Ve') & _).
      rewrite (eval_two A e e' B frame d Q Ff) by (rewrite ?Te, ?Te'; assumption).
      rewrite (proj2 He Hh), Ve. now apply tl_low.
    - intros i k l frame Ff Hk Hl [B1 B2] Hh.
      destruct (two_entries i k l Hk Hl) as (A & e & e' & B & g & Q & Oe & (Te' & He' & Ve') & Hg & gi & Gi).
      destruct (ease_at i k g gi e Hk Hg Gi) as [Hea _]. pose proof (hold_false _ _ Oe Hh) as Hf. destruct Oe as (Te & He & Ve).
      exists (segment_easing (fst e)). split; [exact Hea|].
      rewrite (eval_two A e e' B frame d Q Ff) by (rewrite ?Te, ?Te'; assumption).
      rewrite Hf, Ve, Ve', Te, Te'. reflexivity.
    - intros i k l frame Ff Hk Hl Eq.
      destruct (two_entries i k l Hk Hl) as (A & e & e' & B & g & Q & (Te & He & Ve) & (Te' & He' & Ve') & _).
      pose proof (ks_fin k (nth_error_In _ _ Hk)) as Fk. pose proof (ks_fin l (nth_error_In _ _ Hl)) as Fl.
      pose proof (Ord i (S i) k l ltac:(lia) Hk Hl) as Lt. pose proof Lt as Lt'. apply fltb_lt in Lt'; auto.
      apply feqb_eq in Eq; auto.
      rewrite (eval_two A e e' B frame d Q Ff).
      2:{ rewrite Te. apply fleb_le; auto. lra. }
      2:{ rewrite Te'. apply fltb_lt; auto. lra. }
      rewrite Ve. apply tl_low. destruct (t_hold (fst e)); [reflexivity|].
      rewrite Te, Te'. apply fdiv_zero_pos; [now apply fsub_same_R|].
      now apply fsub_sign_pos.
    - intros k rest frame Ff Q Lt. destruct (last_entry k rest Q) as (A & e & C & Oe & _).
      assert (Ik : In k ks) by (rewrite Q; apply in_or_app; right; now left).
      pose proof (ks_fin k Ik) as Fk.
      assert (Le : fleb (t_frame (fst e)) frame = true).
      { rewrite (proj1 Oe). apply fltb_lt in Lt; auto. apply fleb_le; auto. lra. }
      destruct (eval_end A e frame d C Ff Le) as (w & -> & W1 & W2). destruct Oe as (Te & He & Ve). rewrite Ve.
      destruct (t_hold (fst e)); [rewrite W1 by reflexivity; now apply tl_low|].
      rewrite W2; [now apply tl_high|reflexivity|now rewrite Te].
    - intros k rest frame Ff Q Eq Sn Fv. destruct (last_entry k rest Q) as (A & e & C & Oe & Se).
      assert (Ik : In k ks) by (rewrite Q; apply in_or_app; right; now left).
      pose proof (ks_fin k Ik) as Fk.
      assert (Le : fleb (t_frame (fst e)) frame = true).
      { rewrite (proj1 Oe). apply feqb_eq in Eq; auto. apply fleb_le; auto. lra. }
      destruct (eval_end A e frame d C Ff Le) as (w & -> & _). destruct Oe as (Te & He & Ve). rewrite Ve.
      apply tl_self; auto.
  Qed.
End Groups.

(** * Vector properties *)
Lemma group_ok_reads {T} `{L : TweenLaws T} (f : list f64 -> T) ks groups : Forall2 (group_reads f) ks groups ->
  Forall2 (group_ok (fun k => f (kf_value k))) ks groups /\
  Forall2 (fun k g => forall gi e, g = gi ++ [e] ->
    vector_easing k (segment_easing (fst e)) /\ (sane_handles (kf_b k) -> sane_time (fst e))) ks groups.
Proof.
  intros F. split; (eapply Forall2_weaken; [|exact F]); intros k g [Len Rd].
  - split; [destruct g; [|discriminate]; pose proof (Nat.le_max_l 1 (easings k)) as X; rewrite <- Len in X; cbn in X; lia|]. apply Forall_forall. intros e I.
    apply In_nth_error in I. destruct I as (j & I). destruct (Rd j e I) as (A & B & C & _). repeat split; auto; apply B.
  - intros gi e ->. assert (Hj : nth_error (gi ++ [e]) (List.length gi) = Some e) by apply nth_error_mid.
    destruct (Rd _ _ Hj) as (_ & _ & _ & Hd). rewrite app_length in Len. cbn [List.length] in Len.
    unfold segment_easing, vector_easing, sane_time.
    destruct (t_in (fst e)) as [hi|], (t_out (fst e)) as [ho|]; try contradiction.
    + destruct Hd as (ki & ko & Ki & Ko & Ai & Ao).
      assert (Ne : easings k <> 0).
      { unfold easings. rewrite Ki, Ko. intros Z.
        assert (Nz : forall kh h j, handle_at kh j h -> handle_width (Some kh) <> 0).
        { intros [x y] h j [X Y]. cbn [kh_x kh_y handle_width] in *. unfold component_at in *.
          assert (Np : forall (l : list f64) j v, nth_error l j = Some v -> List.length l <> 0)
            by (intros [|]; [intros []; discriminate|discriminate]).
          destruct x, y; try apply Np in X; try apply Np in Y; lia. }
        pose proof (Nz _ _ _ Ai). pose proof (Nz _ _ _ Ao). lia. }
      rewrite (proj2 (Nat.eqb_neq _ _) Ne). replace (easings k - 1) with (List.length gi) by lia.
      split; [split; cbn [eo ei]; [rewrite Ko|rewrite Ki]; auto|].
      intros S1. split; apply (S1 (List.length gi)); eauto.
    + rewrite Hd. cbn. auto.
Qed.
Lemma keyframes_follow {T} `{L : TweenLaws T} E (f : list f64 -> T) ks w d : keyframes_read f ks w ->
  in_order ks -> moderate_keyframes ks ->
  follows E ks (fun k => f (kf_value k)) vector_easing (fun frame => eval_or E w frame d).
Proof.
  intros (groups & F & ->) O M. destruct (group_ok_reads f ks groups F) as [G S1].
  apply (groups_follow (fun k => f (kf_value k)) E ks groups G O M vector_easing S1 d).
Qed.

(** * Scalar properties *)
Lemma component_reads_at c x : component_reads c x -> component_at c 0 x.
Proof. destruct c; cbn; auto. now intros ->. Qed.
Lemma scalar_follow E v ks w d : ap_k v = AkAnimated ks -> scalar_reads v w ->
  in_order ks -> moderate_keyframes ks ->
  follows E ks first_number scalar_easing (fun frame => eval_or E w frame d).
Proof.
  intros Hv R O M. unfold scalar_reads in R. rewrite Hv in R. destruct R as (a & -> & F1 & F2).
  set (groups := map (fun e => [e]) (combine (an_times a) (an_values a))).
  assert (Q : a = anim_of (List.concat groups)).
  { assert (Ln : List.length (an_times a) = List.length (an_values a))
      by (rewrite <- (Forall2_len _ _ _ F1); apply (Forall2_len _ _ _ F2)).
    unfold groups. destruct a as [ts vs]. cbn [an_times an_values] in *. unfold anim_of. clear - Ln.
    replace (List.concat (map (fun e => [e]) (combine ts vs))) with (combine ts vs).
    - f_equal; revert vs Ln; induction ts as [|t ts IH]; intros [|v vs] Ln; try discriminate; cbn in *; [reflexivity| |reflexivity|];
        f_equal; apply IH; lia.
    - clear. induction (combine ts vs); cbn; congruence. }
  assert (G : Forall2 (fun k g => exists t v, g = [(t, v)] /\ time_reads (kf_b k) t /\ hd_error (kf_value k) = Some v) ks groups).
  { unfold groups. clear - F1 F2. destruct a as [ts vs]. cbn [an_times an_values] in *. revert vs F2.
    induction F1 as [|k t ks ts Ht F1 IH]; intros vs F2; inversion F2; subst; cbn; constructor; eauto. }
  rewrite Q. apply (groups_follow first_number E ks groups); auto.
  - eapply Forall2_weaken; [|exact G]. intros k g (t & x & -> & (T1 & T2 & _) & Hx). split; [discriminate|].
    constructor; [|constructor]. split; [exact T1|]. split; [exact T2|]. cbn. unfold first_number.
    destruct (kf_value k); [discriminate|]. now injection Hx.
  - eapply Forall2_weaken; [|exact G]. intros k g (t & x & -> & (T1 & T2 & Ti & To) & Hx) gi e Ge.
    destruct gi as [|? [|? ?]]; [|discriminate|discriminate]. injection Ge as <-. cbn [fst].
    unfold handle_reads in Ti, To. unfold scalar_easing, easing_at, segment_easing, handle_or, sane_time. cbn [eo ei].
    destruct (kb_in (kf_b k)) as [hi|] eqn:Ki, (t_in t) as [hi'|]; try contradiction;
    destruct (kb_out (kf_b k)) as [ho|] eqn:Ko, (t_out t) as [ho'|]; try contradiction;
    unfold handle_at; repeat match goal with H : _ /\ _ |- _ => destruct H end;
    (split; [split; auto using component_reads_at|]); intros Sn; split; auto;
    apply (Sn 0); unfold handle_at; rewrite ?Ki, ?Ko; eauto 8 using component_reads_at.
Qed.
