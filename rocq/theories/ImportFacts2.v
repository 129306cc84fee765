(** Facts about the importer, part 2: geometry, transforms, shapes. *)
From Coq Require Import ZArith Bool List Arith String Lia.
From Flocq Require Import Core BinarySingleNaN.
From Verif Require Import F64 Kurbo Value Animated Render RenderSpec ValueSpec SplineFacts
  Schema Import ImportSpec ImportFacts.
Import ListNotations.
Open Scope list_scope.
Open Scope nat_scope.

(** * Paths *)

Lemma zip_tangents_len : forall vs is os, List.length (zip_tangents vs is os) = 3 * List.length vs.
Proof. induction vs as [|v vs IH]; intros; cbn [zip_tangents List.length]; [reflexivity|]. rewrite IH. lia. Qed.
Lemma nth_tl {A} n (l : list A) d : nth n (tl l) d = nth (S n) l d.
Proof. destruct l; [destruct n; reflexivity|reflexivity]. Qed.
Lemma zip_tangents_at : forall vs is os n v, nth_error vs n = Some v ->
  nth_error (zip_tangents vs is os) (3 * n) = Some (mkPoint (fst v) (snd v)) /\
  nth_error (zip_tangents vs is os) (3 * n + 1) =
    Some (mkPoint (fst (nth n is (f0, f0))) (snd (nth n is (f0, f0)))) /\
  nth_error (zip_tangents vs is os) (3 * n + 2) =
    Some (mkPoint (fst (nth n os (f0, f0))) (snd (nth n os (f0, f0)))).
Proof.
  induction vs as [|w vs IH]; intros is os [|n] v H; try discriminate.
  - injection H as ->. destruct is, os; cbn; auto.
  - cbn in H. apply (IH (tl is) (tl os)) in H. rewrite !nth_tl in H.
    replace (3 * S n) with (S (S (S (3 * n)))) by lia. exact H.
Qed.
Lemma conv_spline_points b : bezier_points b (fst (conv_spline b)).
Proof. split; [apply zip_tangents_len|]. intros n v H. apply zip_tangents_at, H. Qed.
Lemma conv_spline_closed b : snd (conv_spline b) = bezier_closed b.
Proof. unfold conv_spline, bezier_closed, unwrap_or. cbn. destruct (bz_closed b) as [[]|]; reflexivity. Qed.

Lemma first_of_hd o : first_of o = match o with Some l => hd_error l | None => None end.
Proof. destruct o as [[|]|]; reflexivity. Qed.

(** the keyframe before position [n] *)
Definition before (ks : list shape_keyframe) (n : nat) : option shape_keyframe :=
  match n with 0 => None | S j => nth_error ks j end.
Lemma start_bezier_start_of ks n k : nth_error ks n = Some k ->
  spec (start_bezier (before ks n) k) (n = 0 -> skf_s k <> None) (fun o => o = start_of ks n).
Proof.
  intros H. unfold start_bezier, start_of. rewrite H.
  destruct (skf_s k) as [s|] eqn:Es.
  - cbn [spec]. split; [congruence|]. rewrite <- (first_of_hd (Some s)). destruct n; reflexivity.
  - destruct n as [|j]; cbn [before].
    + cbn. intros F. now apply F.
    + assert (L : S j < List.length ks) by (apply nth_error_Some; congruence).
      destruct (nth_error ks j) as [p|] eqn:P; [|apply nth_error_None in P; lia].
      rewrite !first_of_hd. destruct (skf_e p) as [[|b e]|]; cbn; split; auto; lia.
Qed.

(** the part of [spline_reads] about the first [n] keyframes *)
Record prefix_reads (ks : list shape_keyframe) (n : nat) (closed : bool) (frames : list time)
  (values : list spline_kf) : Prop := {
  pr_times : Forall2 (fun k t => time_reads (skf_b k) t) (firstn n ks) frames;
  pr_len : List.length values = n;
  pr_vals : forall i v k, nth_error values i = Some v -> nth_error ks i = Some k ->
     (exists b, start_of ks i = Some b /\ bezier_points b (sk_start v)) /\
     match first_of (skf_e k), sk_end v with
     | Some b, Some pts => bezier_points b pts
     | None, None => True
     | _, _ => False
     end;
  pr_closed : closed = true <->
   exists i k b, i < n /\ nth_error ks i = Some k /\ bezier_closed b = true /\
     (start_of ks i = Some b \/ first_of (skf_e k) = Some b);
  pr_start : forall i, i < n -> start_of ks i <> None;
  pr_sup : forall i k, i < n -> nth_error ks i = Some k ->
     base_supported (skf_b k) /\ (i = 0 -> skf_s k <> None) }.

Lemma firstn_snoc {A} (l : list A) n x : nth_error l n = Some x -> firstn (S n) l = firstn n l ++ [x].
Proof.
  revert n. induction l as [|a l IH]; intros [|n] H; try discriminate.
  - injection H as ->. reflexivity.
  - cbn in H. cbn. f_equal. now apply IH.
Qed.
Lemma nth_error_snoc {A} (l : list A) x i y : nth_error (l ++ [x]) i = Some y ->
  (i < List.length l /\ nth_error l i = Some y) \/ (i = List.length l /\ y = x).
Proof.
  intros H. destruct (Nat.lt_ge_cases i (List.length l)).
  - left. rewrite nth_error_app1 in H by assumption. auto.
  - right. rewrite nth_error_app2 in H by assumption.
    destruct (i - List.length l) as [|[|?]] eqn:D; cbn in H; try discriminate.
    injection H as ->. split; [lia|reflexivity].
Qed.

Definition kfs_supported (ks : list shape_keyframe) : Prop :=
  forall i k, nth_error ks i = Some k -> (forall j, j < i -> start_of ks j <> None) ->
    base_supported (skf_b k) /\ (i = 0 -> skf_s k <> None).
Definition kfs_import (ks : list shape_keyframe) : Prop :=
  forall i, i < List.length ks -> start_of ks i <> None.

Lemma conv_shape_kfs_spec ks : forall rest n closed frames values,
  skipn n ks = rest -> n <= List.length ks -> prefix_reads ks n closed frames values ->
  spec (conv_shape_kfs (before ks n) rest closed frames values) (kfs_supported ks)
    (fun o => match o with
              | Some s => kfs_import ks /\ spline_reads ks s
              | None => ~ kfs_import ks
              end).
Proof.
  induction rest as [|k rest IH]; intros n closed frames values SK L P.
  - assert (n = List.length ks) as ->.
    { assert (List.length (skipn n ks) = 0) by now rewrite SK. rewrite skipn_length in H. lia. }
    cbn [conv_shape_kfs]. destruct P as [PT PL PV PC PS PU]. rewrite firstn_all in PT. split.
    + intros i k Hk _. apply PU; auto. apply nth_error_Some. congruence.
    + split; [exact PS|]. split; [exact PT|]. cbn. split; [exact PL|]. split; [exact PV|].
      rewrite PC. split.
      * intros (i & k & b & _ & H). eauto.
      * intros (i & k & b & H). exists i, k, b. split; [|exact H]. apply nth_error_Some. destruct H. congruence.
  - assert (Hk : nth_error ks n = Some k).
    { rewrite <- (firstn_skipn n ks), SK. rewrite nth_error_app2; rewrite firstn_length_le; try lia.
      now rewrite Nat.sub_diag. }
    assert (L' : n < List.length ks) by (apply nth_error_Some; congruence).
    cbn [conv_shape_kfs]. pose proof P as [PT PL PV PC PS PU].
    pose proof (conv_time_spec (skf_b k)) as T.
    destruct (conv_time (skf_b k)) as [t| |]; cbn in T; [|cbn; intros Su; apply T, (Su n k Hk PS)|tauto].
    destruct T as [TS TR].
    pose proof (start_bezier_start_of ks n k Hk) as B.
    destruct (start_bezier (before ks n) k) as [o| |]; cbn in B; [|cbn; intros Su; apply B, (Su n k Hk PS)|tauto].
    destruct B as [B1 ->]. cbv beta iota.
    destruct (start_of ks n) as [s|] eqn:SO.
    + destruct (conv_spline s) as [pts cl] eqn:CS.
      assert (Hp : bezier_points s pts) by (pose proof (conv_spline_points s) as X; now rewrite CS in X).
      assert (Hc : cl = bezier_closed s) by (pose proof (conv_spline_closed s) as X; now rewrite CS in X).
      unfold conv_spline in CS. injection CS as E1 E2. subst pts cl.
      set (er := match skf_e k with
                 | Some (e :: _) => let '(p, c) := conv_spline e in (Some p, c)
                 | _ => (None, false) end).
      assert (Her : match first_of (skf_e k), fst er with
                    | Some b, Some pts => bezier_points b pts
                    | None, None => True | _, _ => False end /\
                    (snd er = true <-> exists b, first_of (skf_e k) = Some b /\ bezier_closed b = true)).
      { unfold er. destruct (skf_e k) as [[|e es]|].
        1,3: cbn; split; [exact I|split; [discriminate|intros (? & ? & _); discriminate]].
        pose proof (conv_spline_points e) as X1. pose proof (conv_spline_closed e) as X2.
        destruct (conv_spline e) as [p c]. cbn in *. split; [exact X1|]. subst c. split.
        - intros H. eauto.
        - now intros (b & [= <-] & H). }
      clearbody er. destruct er as [ep ec]. cbn [fst snd] in Her. destruct Her as [He1 He2].
      specialize (IH (S n)). cbn [before] in IH. rewrite Hk in IH. apply IH; clear IH.
      * rewrite <- (firstn_skipn n ks) at 1. rewrite SK. rewrite skipn_app, firstn_length_le by lia.
        rewrite skipn_all2 by (rewrite firstn_length_le; lia).
        replace (S n - n) with 1 by lia. reflexivity.
      * lia.
      * constructor.
        -- rewrite (firstn_snoc ks n k Hk). apply Forall2_app; [exact PT|constructor; [exact TR|constructor]].
        -- rewrite app_length. cbn. lia.
        -- intros i v k' Hv Hk'. apply nth_error_snoc in Hv. destruct Hv as [[Li Hv]|[-> ->]]; [eauto|].
           rewrite PL in Hk'. rewrite Hk in Hk'. injection Hk' as <-. cbn. rewrite PL. split; [eexists; split; [exact SO|exact Hp]|exact He1].
        -- rewrite !orb_true_iff, PC, He2, Hc. split.
           ++ intros [[(i & k' & b & Li & H)|(b & H1 & H2)]|H].
              ** exists i, k', b. split; [lia|exact H].
              ** exists n, k, b. repeat split; auto.
              ** exists n, k, s. repeat split; auto.
           ++ intros (i & k' & b & Li & H1 & H2 & H3).
              destruct (Nat.eq_dec i n) as [->|Ne].
              ** rewrite Hk in H1. injection H1 as <-. destruct H3 as [H3|H3].
                 --- right. rewrite SO in H3. now injection H3 as <-.
                 --- left. right. eauto.
              ** left. left. exists i, k', b. repeat split; auto. lia.
        -- intros i Li. destruct (Nat.eq_dec i n) as [->|Ne]; [congruence|apply PS; lia].
        -- intros i k' Li Hk'. destruct (Nat.eq_dec i n) as [->|Ne]; [|apply (PU i); auto; lia].
           rewrite Hk in Hk'. injection Hk' as <-. auto.
    + cbn. split.
      * intros i k' Hk' Su. destruct (Nat.lt_trichotomy i n) as [Li|[->|Li]].
        -- apply (PU i); auto.
        -- rewrite Hk in Hk'. injection Hk' as <-. auto.
        -- exfalso. now apply (Su n Li).
      * intros K. now apply (K n L').
Qed.

Lemma conv_shape_geometry_spec p : spec (conv_shape_geometry p) (path_supported p)
  (fun o => match o with
            | Some g => path_imports p /\ path_reads p g /\ geometry_wf g
            | None => ~ path_imports p
            end).
Proof.
  unfold conv_shape_geometry, path_supported, path_imports, path_reads. destruct (sp_k p) as [ks|b].
  - eapply spec_bind_ok with (P := kfs_supported ks).
    + apply (conv_shape_kfs_spec ks ks 0); [reflexivity|lia|]. constructor.
      * constructor.
      * reflexivity.
      * intros [|?]; discriminate.
      * split; [discriminate|]. intros (? & ? & ? & ? & _). lia.
      * intros; lia.
      * intros; lia.
    + intros [s|] _ H; cbn beta iota in H; apply spec_ret; [|exact H].
      destruct H as [H1 H2]. split; [exact H1|]. split; [eauto|]. cbn.
      destruct H2 as (F & G & _). apply Forall2_len in F. congruence.
  - destruct (conv_spline b) as [pts c] eqn:CS.
    assert (Hp : bezier_points b pts) by (pose proof (conv_spline_points b) as X; now rewrite CS in X).
    assert (Hc : c = bezier_closed b) by (pose proof (conv_spline_closed b) as X; now rewrite CS in X).
    subst c. destruct (bz_v b) as [|v vs] eqn:V.
    + assert (pts = []) as -> by (destruct Hp as [H _]; rewrite V in H; now apply length_zero_iff_nil).
      cbn. split; [exact I|]. split; [exact I|]. split; [|exact I]. exists [], []. auto.
    + assert (N : pts <> []) by (destruct Hp as [H _]; rewrite V in H; intros ->; discriminate).
      rewrite spline_to_path_of by exact N. cbn [spec]. split; [exact I|]. split; [exact I|].
      split; [|exact I]. exists pts, (path_of pts (bezier_closed b)).
      split; [reflexivity|]. split; [exact Hp|]. apply path_of_spec.
Qed.

(** * Stars *)

Lemma scalar_reads_fixed v w : scalar_reads v w -> (is_fixed w = true <-> is_static v).
Proof.
  unfold scalar_reads, is_static. destruct (ap_k v) as [ks|n].
  - intros (a & -> & _). cbn. split; [discriminate|]. intros [x H]. discriminate.
  - intros ->. cbn. split; eauto.
Qed.
Lemma pos_reads_fixed {T} (f : list f64 -> T) p w : pos_reads f p w -> (is_fixed w = true <-> is_static_pos p).
Proof.
  unfold pos_reads, is_static_pos. destruct (po_k p) as [ks|n].
  - intros (a & _ & ->). cbn. split; [discriminate|]. intros [x H]. discriminate.
  - intros ->. cbn. split; eauto.
Qed.
Lemma a_star_eval_spec E s frame :
  spec (a_star_eval E s frame)
    (vertex_count (if asr_polygon s then StPolygon else StStar) (eval E (asr_points s) frame) * 48
     <= 9223372036854775807)%Z (fun _ => True).
Proof.
  unfold a_star_eval, vertex_count. cbv zeta.
  set (n := f_to_usize (fround (eval E (asr_points s) frame))).
  destruct (Z.eqb_spec n 0) as [->|N].
  { cbn [spec]. split; [|exact I]. destruct (asr_polygon s); cbn; lia. }
  match goal with |- spec (let '(_, _) := ?x in _) _ _ => destruct x as [ir irr] end.
  assert (T : (if negb (asr_polygon s) then (n * 2)%Z else n) =
              match (if asr_polygon s then StPolygon else StStar) with StStar => (n * 2)%Z | StPolygon => n end)
    by (destruct (asr_polygon s); reflexivity).
  rewrite T. set (tv := match (if asr_polygon s then _ else _) with StStar => _ | StPolygon => _ end).
  unfold star_cap_ok, isize_max. destruct (Z.leb_spec (tv * 48) 9223372036854775807); cbn [negb].
  - destruct (star_vertices _ _ _ _ _ _ _ _ _ _ _); cbn [spec]; auto.
  - cbn [spec]. lia.
Qed.
Lemma star_model E s frame g : a_star_into_model E s = Ok g -> geometry_eval E g frame = a_star_eval E s frame.
Proof.
  unfold a_star_into_model. destruct (a_star_is_fixed s) eqn:F; [|now intros [= <-]].
  unfold a_star_is_fixed in F. rewrite !andb_true_iff in F.
  repeat match goal with H : _ /\ _ |- _ => destruct H end.
  assert (X : a_star_eval E s f0 = a_star_eval E s frame).
  { unfold a_star_eval.
    repeat match goal with H : is_fixed _ = true |- _ => rewrite (fixed_any E _ f0 frame H); clear H end.
    reflexivity. }
  rewrite X. destruct (a_star_eval E s frame); intros H'; try discriminate H'. injection H' as <-. reflexivity.
Qed.
Lemma conv_scalar_or0_spec o : spec (conv_scalar_or0 o) (on_some scalar_supported o) (inner_reads StStar o).
Proof.
  destruct o as [v|]; cbn [conv_scalar_or0 inner_reads].
  - eapply spec_iff; [|apply conv_scalar_spec]. unfold on_some. split; [intros H x [= <-]; exact H|auto].
  - eapply spec_iff; [|apply spec_ret; reflexivity]. unfold on_some. split; [discriminate|tauto].
Qed.
Lemma inner_fixed o v : inner_reads StStar o v -> (is_fixed v = true <-> on_some is_static o).
Proof.
  destruct o as [x|]; cbn.
  - intros H. apply scalar_reads_fixed in H. rewrite H. unfold on_some. split; [congruence|auto].
  - intros ->. cbn. unfold on_some. split; [discriminate|reflexivity].
Qed.
Lemma inner_wf sy o v : inner_reads sy o v -> value_wf v.
Proof.
  unfold inner_reads. destruct sy, o; try (intros ->; exact I). apply scalar_reads_wf.
Qed.
Lemma conv_polystar_spec E p or os r pt sy ir is :
  spec (conv_polystar_geometry E p or os r pt sy ir is) (star_supported p or os r pt sy ir is)
    (fun o => exists g, o = Some g /\ star_reads E p or os r pt sy ir is g /\ geometry_wf g).
Proof.
  unfold conv_polystar_geometry, star_supported.
  eapply spec_bind; [apply conv_scalar_spec|]. intros w1 _ R1.
  eapply spec_bind; [apply conv_scalar_spec|]. intros w2 _ R2.
  eapply spec_bind; [apply conv_scalar_spec|]. intros w3 _ R3.
  eapply spec_bind; [apply conv_scalar_spec|]. intros w4 _ R4.
  eapply spec_bind with (R := fun q => inner_reads sy ir (fst q) /\ inner_reads sy is (snd q)).
  { destruct sy; cbn iota.
    - eapply spec_iff; [|eapply spec_bind; [apply conv_scalar_or0_spec|]; intros a _ Ha;
        eapply spec_bind_ok; [apply conv_scalar_or0_spec|]; intros b _ Hb; apply spec_ret; split; [exact Ha|exact Hb]].
      tauto.
    - eapply spec_iff; [|apply spec_ret; split; reflexivity]. split; [discriminate|tauto]. }
  intros [a b] _ [Ra Rb]. cbn [fst snd] in *.
  set (s := mkAStar _ _ _ _ _ _ _ _ _).
  assert (Rp : pos_reads point_of p (asr_position s)) by apply conv_pos_reads.
  assert (RD : forall g, a_star_into_model E s = Ok g -> star_reads E p or os r pt sy ir is g /\ geometry_wf g).
  { intros g Hg. split.
    - exists s. split; [destruct sy; reflexivity|]. repeat (split; [assumption|]).
      intros frame. now apply star_model.
    - unfold a_star_into_model in Hg. destruct (a_star_is_fixed s).
      + destruct (a_star_eval E s f0); try discriminate. injection Hg as <-. exact I.
      + injection Hg as <-. cbn. repeat split;
          first [eapply pos_reads_wf; eassumption | eapply inner_wf; eassumption | eapply scalar_reads_wf; eassumption]. }
  assert (OV : oversized p or os r pt sy ir is <->
    a_star_is_fixed s = true /\
    ~ (vertex_count (if asr_polygon s then StPolygon else StStar) (eval E (asr_points s) f0) * 48
       <= 9223372036854775807)%Z).
  { unfold oversized, a_star_is_fixed. rewrite !andb_true_iff.
    rewrite (pos_reads_fixed _ _ _ Rp).
    assert (SY : (if asr_polygon s then StPolygon else StStar) = sy) by (destruct sy; reflexivity).
    rewrite SY. unfold s; cbn [asr_inner_radius asr_inner_roundness asr_outer_radius asr_outer_roundness asr_rotation asr_points].
    rewrite (scalar_reads_fixed _ _ R1), (scalar_reads_fixed _ _ R2), (scalar_reads_fixed _ _ R3),
      (scalar_reads_fixed _ _ R4).
    assert (IN : (is_fixed a = true /\ is_fixed b = true) <->
                 (sy = StStar -> on_some is_static ir /\ on_some is_static is)).
    { destruct sy.
      - rewrite (inner_fixed _ _ Ra), (inner_fixed _ _ Rb). tauto.
      - cbn in Ra, Rb. subst a b. cbn. split; [discriminate|auto]. }
    assert (PT : forall n, ap_k pt = AkStatic n -> eval E w4 f0 = n).
    { intros n Hn. unfold scalar_reads in R4. rewrite Hn in R4. now subst w4. }
    split.
    - intros (A1 & A2 & A3 & A4 & A5 & n & A6 & A7). rewrite (PT n A6).
      apply IN in A5. unfold is_static at 4. split; [|lia]. repeat split; try tauto. eauto.
    - intros [H1 H2]. destruct H1 as [[[[[[A1 A2] A3] A4] A5] A6] [n A7]].
      rewrite (PT n A7) in H2. repeat (split; [first [assumption | apply IN; auto]|]).
      exists n. split; [exact A7|lia]. }
  assert (D : spec (a_star_into_model E s) (~ oversized p or os r pt sy ir is) (fun _ => True)).
  { eapply spec_iff; [apply not_iff_compat, iff_sym, OV|]. unfold a_star_into_model. destruct (a_star_is_fixed s).
    - eapply spec_iff; [|eapply spec_bind_ok; [apply a_star_eval_spec|]; intros; apply spec_ret; exact I].
      split; [tauto|]. intros H. destruct (Z.le_gt_cases
        (vertex_count (if asr_polygon s then StPolygon else StStar) (eval E (asr_points s) f0) * 48)
        9223372036854775807); [assumption|]. exfalso. apply H. split; [reflexivity|lia].
    - eapply spec_iff; [|apply spec_ret; exact I]. split; [|tauto]. intros _ []. discriminate. }
  eapply spec_bind_ok; [exact D|]. intros g Hg _. apply spec_ret. exists g. split; [reflexivity|]. now apply RD.
Qed.

(** * Transforms *)

Lemma conv_scalar_or_spec o d :
  spec (conv_scalar (unwrap_or o (static_prop d))) (on_some scalar_supported o) (scalar_reads (or_static o d)).
Proof.
  destruct o as [v|]; cbn [unwrap_or or_static].
  - eapply spec_iff; [|apply conv_scalar_spec]. unfold on_some. split; [intros H x [= <-]; exact H|auto].
  - cbn. split; [unfold on_some; discriminate|reflexivity].
Qed.
Definition a_transform_wf (u : a_transform) : Prop :=
  value_wf (at_anchor u) /\ position_wf (at_position u) /\ value_wf (at_rotation u) /\
  value_wf (at_scale u) /\ value_wf (at_skew u) /\ value_wf (at_skew_angle u).
Lemma into_model_wf E u : a_transform_wf u -> transform_wf (a_transform_into_model E u).
Proof. unfold a_transform_into_model. destruct (a_transform_is_fixed u); [intros; exact I|auto]. Qed.

Definition transform_result (E : Ext) (t : s_transform) (tr : transform) (op : value f64) : Prop :=
  (exists u, transform_reads [f1; f1; f1] t u op /\ stored_transform E u tr) /\
  transform_wf tr /\ value_wf op.

Lemma transform_result_intro E t u op :
  at_anchor u = conv_pos_point (unwrap_or (tf_a t) position_zero) ->
  at_scale u = conv_vec2 (unwrap_or (tf_s t) multidim_one) ->
  position_reads (tf_p t) (at_position u) ->
  match tf_r t with
  | Some (ArRotation v) => scalar_reads v (at_rotation u)
  | Some _ => False
  | None => at_rotation u = VFixed f0
  end ->
  scalar_reads (or_static (tf_sk t) f0) (at_skew u) ->
  scalar_reads (or_static (tf_sa t) f0) (at_skew_angle u) ->
  scalar_reads (or_static (tf_o t) f100) op ->
  transform_result E t (a_transform_into_model E u) op.
Proof.
  intros Ha Hs Hp Hr Hk Hka Ho.
  assert (RA : match tf_a t with
     | Some p => pos_reads point_of p (at_anchor u) | None => at_anchor u = VFixed (mkPoint f0 f0) end).
  { rewrite Ha. destruct (tf_a t); cbn [unwrap_or]; [apply conv_pos_reads|reflexivity]. }
  assert (RS : match tf_s t with
     | Some v => vector_reads vec2_of (md_p v) (at_scale u)
     | None => at_scale u = VFixed (vec2_of [f1; f1; f1]) end).
  { rewrite Hs. destruct (tf_s t); cbn [unwrap_or]; [apply conv_multi_reads, to_vec2_of|reflexivity]. }
  split; [|split].
  - exists u. split.
    + unfold transform_reads. repeat (split; [assumption|]). assumption.
    + intros frame. apply transform_model.
  - apply into_model_wf. unfold a_transform_wf. repeat split.
    + destruct (tf_a t); [eapply pos_reads_wf; eassumption|rewrite RA; exact I].
    + destruct (tf_p t), (at_position u); cbn in Hp |- *; try tauto.
      * eapply pos_reads_wf; eassumption.
      * destruct Hp. split; eapply scalar_reads_wf; eassumption.
    + destruct (tf_r t) as [[v|]|]; [eapply scalar_reads_wf; eassumption|tauto|rewrite Hr; exact I].
    + destruct (tf_s t); [eapply vector_reads_wf; eassumption|rewrite RS; exact I].
    + eapply scalar_reads_wf; eassumption.
    + eapply scalar_reads_wf; eassumption.
  - eapply scalar_reads_wf; eassumption.
Qed.

Lemma conv_transform_spec E t : spec (conv_transform E t) (layer_transform_supported t)
  (fun p => transform_result E t (fst p) (snd p)).
Proof.
  unfold conv_transform.
  eapply spec_iff; [|eapply spec_bind with (P := exists v, tf_r t = Some (ArRotation v))
    (R := fun v => tf_r t = Some (ArRotation v))
    (Q := (forall s, tf_p t = ApSplit s -> scalar_supported (spv_x s) /\ scalar_supported (spv_y s)) /\
          (forall v, tf_r t = Some (ArRotation v) -> scalar_supported v) /\ rest_supported t)].
  - unfold layer_transform_supported. split.
    + intros ([v Hv] & H1 & H2 & H3). repeat split; auto.
      * exists v. auto.
      * now apply H1.
      * now apply H1.
      * apply H3.
      * apply H3.
      * apply H3.
    + intros ([v [Hv1 Hv2]] & H1 & H3). split; [eauto|]. split; [exact H1|]. split; [|exact H3].
      intros w Hw. congruence.
  - destruct (tf_r t) as [[v|]|]; cbn; [split; eauto| |]; intros [? ?]; discriminate.
  - intros rin _ Hr.
    eapply spec_bind with (R := position_reads (tf_p t)).
    { destruct (tf_p t) as [p|s].
      - cbn. split; [discriminate|apply conv_pos_reads].
      - eapply spec_iff; [|eapply spec_bind; [apply (conv_scalar_spec (spv_x s))|]; intros x _ Hx;
          eapply spec_bind_ok; [apply (conv_scalar_spec (spv_y s))|]; intros y _ Hy; apply spec_ret].
        + split; [intros H s' [= <-]; exact H|auto].
        + split; assumption. }
    intros pos _ Hp.
    eapply spec_bind with (R := scalar_reads rin).
    { eapply spec_iff; [|apply conv_scalar_spec]. split; [intros H v Hv; congruence|auto]. }
    intros rot _ Hrot. unfold rest_supported.
    eapply spec_bind; [apply conv_scalar_or_spec|]. intros sk _ Hsk.
    eapply spec_bind; [apply conv_scalar_or_spec|]. intros sa _ Hsa.
    eapply spec_bind_ok; [apply conv_scalar_or_spec|]. intros op _ Hop.
    apply spec_ret. cbn [fst snd]. apply transform_result_intro; try assumption; try reflexivity.
    rewrite Hr. exact Hrot.
Qed.

Lemma conv_shape_transform_spec E t : spec (conv_shape_transform E t) (group_transform_supported (trs_t t))
  (fun g => transform_result E (trs_t t) (gt_transform g) (gt_opacity g)).
Proof.
  unfold conv_shape_transform. set (v := trs_t t). clearbody v. clear t. cbv zeta.
  eapply spec_iff; [|eapply spec_bind with (P := forall r, tf_r v = Some r -> exists w, r = ArRotation w)
    (R := fun w => match tf_r v with Some r => r = ArRotation w | None => w = float_value_zero end)
    (Q := (exists p, tf_p v = ApPosition p) /\
          (forall w, tf_r v = Some (ArRotation w) -> scalar_supported w) /\ rest_supported v)].
  - unfold group_transform_supported. split.
    + intros (H1 & H2 & H3 & H4). split; [|auto]. intros r Hr. destruct (H1 r Hr) as [w ->]. eauto.
    + intros (H1 & H2 & H3). split; [|split; [exact H2|split; [|exact H3]]].
      * intros r Hr. destruct (H1 r Hr) as (w & -> & _). eauto.
      * intros w Hw. destruct (H1 _ Hw) as (w' & [= <-] & H). exact H.
  - destruct (tf_r v) as [[w|]|]; cbn.
    + split; [intros r [= <-]; eauto|reflexivity].
    + intros H. destruct (H _ eq_refl). discriminate.
    + split; [discriminate|reflexivity].
  - intros rin _ Hr.
    eapply spec_bind with (R := fun p => tf_p v = ApPosition p).
    { destruct (tf_p v) as [p|s]; cbn; [split; eauto|]. intros [? ?]; discriminate. }
    intros pos _ Hp.
    eapply spec_bind with (R := scalar_reads rin).
    { eapply spec_iff; [|apply conv_scalar_spec]. destruct (tf_r v) as [r|].
      - subst r. split; [intros H w Hw; congruence|auto].
      - subst rin. cbn. split; [discriminate|auto]. }
    intros rot _ Hrot. unfold rest_supported.
    eapply spec_bind; [apply conv_scalar_or_spec|]. intros sk _ Hsk.
    eapply spec_bind; [apply conv_scalar_or_spec|]. intros sa _ Hsa.
    eapply spec_bind_ok; [apply conv_scalar_or_spec|]. intros op _ Hop.
    apply spec_ret. cbn [gt_transform gt_opacity]. apply transform_result_intro; try assumption; try reflexivity.
    + rewrite Hp. cbn. apply conv_pos_reads.
    + destruct (tf_r v) as [r|]; [now subst r|]. subst rin. exact Hrot.
Qed.
