(** C69: exactly when a trim draws nothing but parts of the outline. *)
From Coq Require Import ZArith Bool List Arith String Lia.
From Verif Require Import F64 Kurbo Examples TrimSpec PropTrim.
Import ListNotations.
Close Scope string_scope.
Open Scope list_scope.
Open Scope nat_scope.

(** ** Specification *)
(** Segments that are kept one after the other in the same range meet. *)
Definition kept_meet (segs : list path_seg) (pss : list (list part)) : Prop :=
  forall ps i s s', In ps pss -> In i (map pa_ix ps) -> In (S i) (map pa_ix ps) ->
    nth_error segs i = Some s -> nth_error segs (S i) = Some s' -> target s = origin s'.

Lemma begin_same q c : begin_at q c = c -> q = origin c.
Proof. destruct c; cbn; congruence. Qed.
Lemma following_length cs : forall q, List.length (following q cs) = List.length cs.
Proof. induction cs; intros q; cbn; auto. Qed.
Lemma joined_length cs : List.length (joined cs) = List.length cs.
Proof. destruct cs; cbn; [reflexivity|]. now rewrite following_length. Qed.
Lemma joined_chained cs : joined cs = cs -> chained cs.
Proof.
  destruct cs as [|c cs]; [intros; exact I|]. cbn [joined]. intros H. injection H as H. revert c H.
  induction cs as [|c' cs IH]; intros c H; [exact I|]. cbn [following] in H. injection H as H1 H2. split; [now apply begin_same|]. now apply IH.
Qed.
Lemma concat_joined css : List.concat (map joined css) = List.concat css <-> Forall chained css.
Proof.
  split.
  - induction css as [|cs css IH]; intros H; [constructor|]. cbn [map List.concat] in H.
    assert (L : joined cs = cs /\ List.concat (map joined css) = List.concat css).
    { apply (f_equal (fun l => (firstn (List.length cs) l, skipn (List.length cs) l))) in H. injection H as H1 H2.
      rewrite !firstn_app, <- (joined_length cs), firstn_all, Nat.sub_diag in H1 at 1. rewrite joined_length, firstn_all, Nat.sub_diag in H1. cbn [firstn] in H1. rewrite !app_nil_r in H1.
      rewrite !skipn_app in H2. rewrite skipn_all2 in H2 by (rewrite joined_length; auto). rewrite joined_length, skipn_all, Nat.sub_diag in H2. auto. }
    destruct L as [L1 L2]. constructor; [now apply joined_chained|auto].
  - induction 1 as [|cs css H _ IH]; [reflexivity|]. cbn [map List.concat]. now rewrite chained_joined, IH.
Qed.
Lemma chained_nth cs : chained cs <-> forall k c c', nth_error cs k = Some c -> nth_error cs (S k) = Some c' -> target c = origin c'.
Proof.
  split.
  - induction cs as [|c cs IH]; intros H k x y Hx Hy; [destruct k; discriminate|]. destruct cs as [|c' cs]; [destruct k as [|[]]; discriminate|].
    destruct H as [H1 H2]. destruct k as [|k]; cbn in Hx, Hy; [congruence|]. eapply (IH H2 k); eauto.
  - induction cs as [|c cs IH]; intros H; [exact I|]. destruct cs as [|c' cs]; [exact I|]. split; [apply (H 0 c c'); reflexivity|].
    apply IH. intros k x y Hx Hy. apply (H (S k)); assumption.
Qed.
Lemma keeps_ix E segs a b ps i : keeps E segs a b ps -> map pa_ix ps = seq i (List.length ps) -> forall j r, nth_error ps j = Some r -> pa_ix r = i + j.
Proof.
  intros K Hi j r Hr. apply (map_nth_error pa_ix) in Hr as Hr'. rewrite Hi in Hr'.
  assert (Lj : j < List.length ps) by (apply nth_error_Some; congruence).
  apply nth_error_nth with (d := 0) in Hr'. rewrite seq_nth in Hr' by exact Lj. lia.
Qed.
Lemma keeps_meet E segs a b ps : keeps E segs a b ps -> end_laws E ->
  (chained (map (curve E segs) ps) <-> kept_meet segs [ps]).
Proof.
  intros K [L0 L1]. rewrite chained_nth.
  assert (X : forall k p q s s', nth_error ps k = Some p -> nth_error ps (S k) = Some q -> nth_error segs (pa_ix p) = Some s -> nth_error segs (pa_ix q) = Some s' ->
     target (curve E segs p) = target s /\ origin (curve E segs q) = origin s').
  { intros k p q s s' Hp Hq Hs Hs'. assert (Lk : S k < List.length ps) by (apply nth_error_Some; congruence).
    pose proof (kp_first _ _ _ _ _ K k q Hq) as Fq. pose proof (kp_last _ _ _ _ _ K k p Hp Lk) as Tp.
    unfold curve. now rewrite (nth_error_nth _ _ _ Hs), (nth_error_nth _ _ _ Hs'), Fq, Tp, L0, L1. }
  destruct (kp_run _ _ _ _ _ K) as (i & Hi). pose proof (keeps_ix E segs a b ps i K Hi) as Ix. split.
  - intros H qs j s s' [<-|[]] Hj Hj' Hs Hs'. rewrite Hi in Hj, Hj'. apply in_seq in Hj, Hj'.
    destruct (nth_error ps (j - i)) as [p|] eqn:Ep; [|apply nth_error_None in Ep; lia].
    destruct (nth_error ps (S (j - i))) as [q|] eqn:Eq; [|apply nth_error_None in Eq; lia].
    pose proof (Ix _ _ Ep) as Ip. pose proof (Ix _ _ Eq) as Iq. replace (i + (j - i)) with j in Ip by lia. replace (i + S (j - i)) with (S j) in Iq by lia.
    destruct (X (j - i) p q s s' Ep Eq) as [<- <-]; [now rewrite Ip|now rewrite Iq|]. eapply (H (j - i)); apply map_nth_error; assumption.
  - intros H k c c' Hc Hc'.
    destruct (nth_error ps k) as [p|] eqn:Ep; [|apply nth_error_None in Ep; assert (k < List.length (map (curve E segs) ps)) by (apply nth_error_Some; congruence); rewrite map_length in *; lia].
    destruct (nth_error ps (S k)) as [q|] eqn:Eq; [|apply nth_error_None in Eq; assert (S k < List.length (map (curve E segs) ps)) by (apply nth_error_Some; congruence); rewrite map_length in *; lia].
    rewrite (map_nth_error _ _ _ Ep) in Hc. rewrite (map_nth_error _ _ _ Eq) in Hc'. injection Hc as <-. injection Hc' as <-.
    destruct (kp_part _ _ _ _ _ K p (nth_error_In _ _ Ep)) as (s & Hs & _). destruct (kp_part _ _ _ _ _ K q (nth_error_In _ _ Eq)) as (s' & Hs' & _).
    destruct (X k p q s s' Ep Eq Hs Hs') as [-> ->]. apply (H ps (pa_ix p)); [now left|now apply in_map, nth_error_In with k| | |].
    + replace (S (pa_ix p)) with (pa_ix q) by (rewrite (Ix _ _ Ep), (Ix _ _ Eq); lia). now apply in_map, nth_error_In with (S k).
    + exact Hs.
    + replace (S (pa_ix p)) with (pa_ix q) by (rewrite (Ix _ _ Ep), (Ix _ _ Eq); lia). exact Hs'.
Qed.
(** The segments drawn are exactly the parts kept if and only if the segments
    kept one after the other in a range meet. *)
Theorem C69_exact : forall E segs rs pss, end_laws E ->
  Forall2 (fun ab ps => keeps E segs (fst ab) (snd ab) ps) rs pss ->
  (path_segments (List.concat (map (drawn E segs) pss)) = Ok (List.concat (map (map (curve E segs)) pss)) <-> kept_meet segs pss).
Proof.
  intros E segs rs pss L F. rewrite C69_joined.
  assert (Ej : map (fun ps => joined (map (curve E segs) ps)) pss = map joined (map (map (curve E segs)) pss)) by now rewrite map_map.
  rewrite Ej.
  assert (A : forall x y : list path_seg, Ok x = Ok y <-> x = y) by (split; congruence). rewrite A, concat_joined, Forall_map.
  assert (B : Forall (fun ps => chained (map (curve E segs) ps)) pss <-> Forall (fun ps => kept_meet segs [ps]) pss).
  { induction F as [|ab ps rs pss K _ IH]; [split; constructor|]. rewrite !Forall_cons_iff, IH by (now rewrite map_map in * || reflexivity). now rewrite (keeps_meet E segs _ _ ps K L). }
  rewrite B, Forall_forall. unfold kept_meet. split.
  - intros H ps i s s' Hp. apply (H ps Hp). now left.
  - intros H ps Hp qs i s s' [<-|[]]. now apply H.
Qed.
(** The corner of three sides meets this; two lines apart do not. *)
Example C69_exact_applies : exists ps, keeps E_exact sides f0 (f_of_Z 15) ps /\ List.length ps = 2 /\ end_laws E_exact /\ kept_meet sides [ps].
Proof.
  destruct C69_parts_apply as (ps & K & L & E & C). exists ps. repeat split; auto; try apply K; try apply E. intros qs i s s' _ _ _. apply C.
Qed.
Example C69_exact_apart : ~ kept_meet [SLine (zp 0 0) (zp 10 0); SLine (zp 0 10) (zp 10 10)] [[mkPart 0 f0 f1; mkPart 1 f0 f1]].
Proof.
  intros H. specialize (H _ 0 _ _ (or_introl eq_refl) (or_introl eq_refl) (or_intror (or_introl eq_refl)) eq_refl eq_refl).
  apply (f_equal (fun p => feqb (px p) f0)) in H. vm_compute in H. discriminate.
Qed.
