(** Round trip of documents through [serde_json::Value] *)
From Coq Require Import ZArith Reals Bool List String Lia.
From Flocq Require Import Core BinarySingleNaN.
From Verif Require Import F64 F64Facts Schema Serde SerdeSpec.
Import ListNotations.
Local Open Scope string_scope.
Local Open Scope list_scope.

Definition json_ind' (P : json -> Prop)
  (Hn : P JNull) (Hb : forall b, P (JBool b)) (Hi : forall n, P (JInt n)) (Hf : forall x, P (JFloat x))
  (Hs : forall s, P (JStr s)) (Ha : forall l, Forall P l -> P (JArr l))
  (Ho : forall fs, Forall (fun m => P (snd m)) fs -> P (JObj fs)) : forall j, P j :=
  fix go (j : json) : P j := match j with
  | JNull => Hn | JBool b => Hb b | JInt n => Hi n | JFloat x => Hf x | JStr s => Hs s
  | JArr l => Ha l ((fix all (l : list json) : Forall P l :=
                       match l with [] => Forall_nil _ | x :: r => Forall_cons _ (go x) (all r) end) l)
  | JObj fs => Ho fs ((fix all (l : list (string * json)) : Forall (fun m => P (snd m)) l :=
                       match l with
                       | [] => Forall_nil _
                       | m :: r => @Forall_cons _ (fun m => P (snd m)) m r (go (snd m)) (all r)
                       end) fs)
  end.

Definition fok : list (string * json) -> Prop := Forall (fun m => json_ok (snd m)).

(** * Members *)
Lemma req_member {A} k (f : json -> option A) fs :
  req k f fs = match member k fs with Some v => f v | None => None end.
Proof. induction fs as [|[k' v] r IH]; cbn; auto. destruct (String.eqb k k'); auto. Qed.
Lemma opt_member {A} k (f : json -> option A) fs :
  opt k f fs = match member k fs with
               | None | Some JNull => Some None
               | Some v => match f v with Some x => Some (Some x) | None => None end
               end.
Proof. induction fs as [|[k' v] r IH]; cbn; auto. destruct (String.eqb k k'); auto; destruct v; auto. Qed.
Lemma has_member k fs : has k fs = match member k fs with Some _ => true | None => false end.
Proof. unfold has. rewrite req_member. destruct (member k fs); auto. Qed.
Lemma member_ok k fs v : fok fs -> member k fs = Some v -> json_ok v.
Proof.
  induction 1 as [|[k' w] r H _ IH]; cbn; [discriminate|]. destruct (String.eqb k k'); auto. intros [= <-]. exact H.
Qed.
Lemma member_app k a b : member k (a ++ b) = match member k a with Some v => Some v | None => member k b end.
Proof. induction a as [|[k' v] r IH]; cbn; auto. destruct (String.eqb k k'); auto. Qed.
Lemma member_fld {A} k k' (s : A -> json) x r :
  member k (fld k' s x ++ r) = if String.eqb k k' then Some (s x) else member k r.
Proof. reflexivity. Qed.
Lemma member_fld0 {A} k k' (s : A -> json) x :
  member k (fld k' s x) = if String.eqb k k' then Some (s x) else None.
Proof. reflexivity. Qed.
Lemma member_nfld {A} k k' (s : A -> json) o r :
  member k (nfld k' s o ++ r) = if String.eqb k k' then Some (match o with Some x => s x | None => JNull end) else member k r.
Proof. reflexivity. Qed.
Lemma member_nfld0 {A} k k' (s : A -> json) o :
  member k (nfld k' s o) = if String.eqb k k' then Some (match o with Some x => s x | None => JNull end) else None.
Proof. reflexivity. Qed.
Lemma member_ofld {A} k k' (s : A -> json) o r :
  member k (ofld k' s o ++ r) =
  if String.eqb k k' then match o with Some x => Some (s x) | None => member k r end else member k r.
Proof. destruct o; cbn; auto. destruct (String.eqb k k'); auto. Qed.
Lemma member_ofld0 {A} k k' (s : A -> json) o :
  member k (ofld k' s o) = if String.eqb k k' then match o with Some x => Some (s x) | None => None end else None.
Proof. destruct o; cbn; auto. destruct (String.eqb k k'); auto. Qed.

(** * Round trip of one type *)
Class RT {A} (f : json -> option A) (s : A -> json) : Prop :=
  rt : forall j x, json_ok j -> f j = Some x -> f (s x) = Some x /\ (j <> JNull -> s x <> JNull).

Definition okR {A} (f : json -> option A) (s : A -> json) (x : A) : Prop := f (s x) = Some x.
Definition okO {A} (f : json -> option A) (s : A -> json) (o : option A) : Prop :=
  match o with Some x => f (s x) = Some x /\ s x <> JNull | None => True end.
Lemma req_inv {A} {f : json -> option A} {s} {R : RT f s} k fs x : fok fs -> req k f fs = Some x -> okR f s x.
Proof.
  intros O H. rewrite req_member in H. destruct (member k fs) as [v|] eqn:M; [|discriminate].
  exact (proj1 (R v x (member_ok _ _ _ O M) H)).
Qed.
Lemma opt_inv {A} {f : json -> option A} {s} {R : RT f s} k fs o : fok fs -> opt k f fs = Some o -> okO f s o.
Proof.
  intros O H. rewrite opt_member in H. destruct (member k fs) as [v|] eqn:M; [|injection H as <-; exact I].
  pose proof (member_ok _ _ _ O M) as Ov.
  assert (C : v = JNull /\ o = None \/ v <> JNull /\ exists x, f v = Some x /\ o = Some x).
  { destruct v; [left; split; congruence|right..];
    (split; [discriminate|]); (destruct (f _) as [y|] eqn:E; [|discriminate]); exists y; split; congruence. }
  destruct C as [[_ ->]|[N (x & Hx & ->)]]; [exact I|]. destruct (R v x Ov Hx) as [H1 H2]. split; auto.
Qed.
Lemma req_ok {A} (f : json -> option A) s k fs x : member k fs = Some (s x) -> okR f s x -> req k f fs = Some x.
Proof. intros M H. rewrite req_member, M. exact H. Qed.
Lemma opt_ok {A} (f : json -> option A) s k fs o :
  member k fs = match o with Some x => Some (s x) | None => None end -> okO f s o -> opt k f fs = Some o.
Proof.
  intros M H. rewrite opt_member, M. destruct o as [x|]; auto. destruct H as [H N]. rewrite H.
  destruct (s x); auto. congruence.
Qed.
Lemma opt_okn {A} (f : json -> option A) s k fs o :
  member k fs = Some (match o with Some x => s x | None => JNull end) -> okO f s o -> opt k f fs = Some o.
Proof.
  intros M H. rewrite opt_member, M. destruct o as [x|]; auto. destruct H as [H N]. rewrite H.
  destruct (s x); auto. congruence.
Qed.

Lemma as_map_ok j fs : json_ok j -> as_map j = Some fs -> fok fs.
Proof. intros O H. destruct j; try discriminate. injection H as ->. inversion O; auto. Qed.
Lemma combine_ok keys : forall l, Forall json_ok l -> fok (combine keys l).
Proof.
  induction keys as [|k r IH]; intros l H; cbn; [constructor|].
  destruct H; constructor; cbn; auto. apply IH. auto.
Qed.
Lemma as_struct_ok keys j fs : json_ok j -> as_struct keys j = Some fs -> fok fs.
Proof.
  intros O H. destruct j; try discriminate; cbn in H.
  - destruct (_ =? _)%nat; [|discriminate]. injection H as <-. apply combine_ok. inversion O; auto.
  - injection H as ->. inversion O; auto.
Qed.
Lemma as_struct_default_ok keys j fs : json_ok j -> as_struct_default keys j = Some fs -> fok fs.
Proof.
  intros O H. destruct j; try discriminate; cbn in H.
  - destruct (_ <=? _)%nat; [|discriminate]. injection H as <-. apply combine_ok. inversion O; auto.
  - injection H as ->. inversion O; auto.
Qed.

(** destruct the reading of a struct *)
Ltac inv_de H :=
  match type of H with
  | match ?e with Some _ => _ | None => None end = Some _ =>
      let E := fresh "E" in destruct e eqn:E; [inv_de H; inv_de E|discriminate H]
  | _ => idtac
  end.
Ltac inv_fields :=
  repeat match goal with
  | O : json_ok ?j, H : as_map ?j = Some ?fs |- _ =>
      let F := fresh "F" in pose proof (as_map_ok _ _ O H) as F; clear H
  | O : json_ok ?j, H : as_struct _ ?j = Some ?fs |- _ =>
      let F := fresh "F" in pose proof (as_struct_ok _ _ _ O H) as F; clear H
  | O : json_ok ?j, H : as_struct_default _ ?j = Some ?fs |- _ =>
      let F := fresh "F" in pose proof (as_struct_default_ok _ _ _ O H) as F; clear H
  end;
  repeat match goal with
  | F : fok ?fs, H : req ?k ?f ?fs = Some ?x |- _ => apply (req_inv k fs x F) in H
  | F : fok ?fs, H : opt ?k ?f ?fs = Some ?x |- _ => apply (opt_inv k fs x F) in H
  end.
Ltac fin H := injection H as H; subst.

Ltac keys := repeat
  match goal with
  | |- context [String.eqb ?a ?b] =>
      let v := eval vm_compute in (String.eqb a b) in change (String.eqb a b) with v; cbn iota
  end.
Ltac members := repeat (first
  [ rewrite member_fld | rewrite member_nfld | rewrite member_ofld
  | rewrite member_fld0 | rewrite member_nfld0 | rewrite member_ofld0 ]; keys).
Lemma fld_skip {A} k k' (s : A -> json) x r v : String.eqb k k' = false -> member k r = v -> member k (fld k' s x ++ r) = v.
Proof. intros E H. rewrite member_fld, E. exact H. Qed.
Lemma fld_hit {A} k k' (s : A -> json) x r : String.eqb k k' = true -> member k (fld k' s x ++ r) = Some (s x).
Proof. intros E. rewrite member_fld, E. reflexivity. Qed.
Lemma nfld_skip {A} k k' (s : A -> json) x r v : String.eqb k k' = false -> member k r = v -> member k (nfld k' s x ++ r) = v.
Proof. intros E H. rewrite member_nfld, E. exact H. Qed.
Lemma nfld_hit {A} k k' (s : A -> json) o r : String.eqb k k' = true ->
  member k (nfld k' s o ++ r) = Some (match o with Some x => s x | None => JNull end).
Proof. intros E. rewrite member_nfld, E. reflexivity. Qed.
Lemma ofld_skip {A} k k' (s : A -> json) x r v : String.eqb k k' = false -> member k r = v -> member k (ofld k' s x ++ r) = v.
Proof. intros E H. rewrite member_ofld, E. exact H. Qed.
Lemma ofld_hit {A} k k' (s : A -> json) o r : String.eqb k k' = true -> member k r = None ->
  member k (ofld k' s o ++ r) = match o with Some x => Some (s x) | None => None end.
Proof. intros E H. rewrite member_ofld, E, H. reflexivity. Qed.
Lemma fld_skip0 {A} k k' (s : A -> json) x : String.eqb k k' = false -> member k (fld k' s x) = None.
Proof. intros E. rewrite member_fld0, E. reflexivity. Qed.
Lemma fld_hit0 {A} k k' (s : A -> json) x : String.eqb k k' = true -> member k (fld k' s x) = Some (s x).
Proof. intros E. rewrite member_fld0, E. reflexivity. Qed.
Lemma nfld_skip0 {A} k k' (s : A -> json) x : String.eqb k k' = false -> member k (nfld k' s x) = None.
Proof. intros E. rewrite member_nfld0, E. reflexivity. Qed.
Lemma nfld_hit0 {A} k k' (s : A -> json) o : String.eqb k k' = true ->
  member k (nfld k' s o) = Some (match o with Some x => s x | None => JNull end).
Proof. intros E. rewrite member_nfld0, E. reflexivity. Qed.
Lemma ofld_skip0 {A} k k' (s : A -> json) x : String.eqb k k' = false -> member k (ofld k' s x) = None.
Proof. intros E. rewrite member_ofld0, E. reflexivity. Qed.
Lemma ofld_hit0 {A} k k' (s : A -> json) o : String.eqb k k' = true ->
  member k (ofld k' s o) = match o with Some x => Some (s x) | None => None end.
Proof. intros E. rewrite member_ofld0, E. reflexivity. Qed.
Ltac find :=
  match goal with
  | |- member _ (ofld _ _ _ ++ _) = _ =>
      first [simple eapply ofld_skip; [reflexivity|find] | simple eapply ofld_hit; [reflexivity|find]]
  | |- member _ (fld _ _ _ ++ _) = _ =>
      first [simple eapply fld_skip; [reflexivity|find] | simple eapply fld_hit; reflexivity]
  | |- member _ (nfld _ _ _ ++ _) = _ =>
      first [simple eapply nfld_skip; [reflexivity|find] | simple eapply nfld_hit; reflexivity]
  | |- member _ (ofld _ _ _) = _ =>
      first [simple eapply ofld_skip0; reflexivity | simple eapply ofld_hit0; reflexivity]
  | |- member _ (fld _ _ _) = _ =>
      first [simple eapply fld_skip0; reflexivity | simple eapply fld_hit0; reflexivity]
  | |- member _ (nfld _ _ _) = _ =>
      first [simple eapply nfld_skip0; reflexivity | simple eapply nfld_hit0; reflexivity]
  end.
Ltac name := match goal with |- context [JObj ?l] => let L := fresh "L" in set (L := l) end.
Ltac put :=
  match goal with
  | |- context [req ?k ?f ?L] =>
      let M := fresh "M" in eassert (M : member k L = _) by (try match goal with |- member _ ?l = _ => is_var l; unfold l end; find);
      let H := fresh "H" in
      eassert (H : req k f L = Some _) by (eapply req_ok; [exact M|eassumption]);
      rewrite H; clear H M; cbn iota beta
  | |- context [opt ?k ?f ?L] =>
      let M := fresh "M" in eassert (M : member k L = _) by (try match goal with |- member _ ?l = _ => is_var l; unfold l end; find);
      let H := fresh "H" in
      eassert (H : opt k f L = Some _) by
        (first [eapply opt_ok; [exact M|eassumption]
               |eapply opt_okn; [exact M|eassumption]]);
      rewrite H; clear H M; cbn iota beta
  end.

(** * Basic types *)
Lemma f_of_Z_finite n : (- 2 ^ 63 <= n < 2 ^ 64)%Z -> is_finite (f_of_Z n) = true.
Proof.
  intros Hn. unfold f_of_Z, fnorm. pose proof (binary_normalize_correct 53 1024 _ _ mode_NE n 0 false) as H.
  cbv zeta in H. rewrite Rlt_bool_true in H; [tauto|].
  apply Rle_lt_trans with (bpow radix2 64).
  - apply abs_round_le_generic; try typeclasses eauto.
    + apply generic_format_bpow. unfold SpecFloat.fexp, SpecFloat.emin. lia.
    + unfold F2R, Fnum, Fexp. change (bpow radix2 0) with 1%R. rewrite Rmult_1_r, <- abs_IZR.
      change (bpow radix2 64) with (IZR (2 ^ 64)). apply IZR_le. lia.
  - apply bpow_lt. lia.
Qed.
#[export] Instance rt_f64 : RT de_f64 ser_f64.
Proof.
  intros j x O H. unfold ser_f64. assert (is_finite x = true) as ->.
  { destruct j; try discriminate; injection H as <-; inversion O; auto using f_of_Z_finite. }
  split; [reflexivity|discriminate].
Qed.
#[export] Instance rt_string : RT de_string JStr.
Proof. intros j x _ _. split; [reflexivity|discriminate]. Qed.
#[export] Instance rt_bool : RT de_bool JBool.
Proof. intros j x _ _. split; [reflexivity|discriminate]. Qed.
#[export] Instance rt_value : RT de_value ser_value.
Proof. intros j x _ H. injection H as <-. split; auto. Qed.
Lemma de_uint_spec m j n : de_uint m j = Some n -> j = JInt n /\ (0 <= n <= m)%Z.
Proof.
  destruct j; cbn; try discriminate. destruct (0 <=? n0)%Z eqn:A, (n0 <=? m)%Z eqn:B; cbn; try discriminate.
  intros [= ->]. split; auto. lia.
Qed.
#[export] Instance rt_uint m : RT (de_uint m) JInt.
Proof.
  intros j x _ H. split; [|discriminate]. apply de_uint_spec in H. destruct H as [-> H]. cbn.
  replace (0 <=? x)%Z with true by lia. replace (x <=? m)%Z with true by lia. reflexivity.
Qed.
Lemma rt_nat m : RT (fun j => let? n := de_uint m j in Some (Z.to_nat n)) ser_nat.
Proof.
  intros j x O H. cbn beta in *. destruct (de_uint m j) as [n|] eqn:E; [|discriminate]. injection H as <-.
  pose proof (de_uint_spec _ _ _ E) as [-> Hn]. unfold ser_nat. rewrite Z2Nat.id by lia.
  split; [|discriminate]. rewrite E. reflexivity.
Qed.
#[export] Instance rt_usize : RT de_usize ser_nat. Proof. exact (rt_nat _). Qed.
#[export] Instance rt_u8 : RT de_u8 ser_nat. Proof. exact (rt_nat _). Qed.
#[export] Instance rt_u32 : RT de_u32 ser_nat. Proof. exact (rt_nat _). Qed.

Lemma mapO_Forall2 {A B} (f : A -> option B) l xs : mapO f l = Some xs <-> Forall2 (fun a b => f a = Some b) l xs.
Proof.
  revert xs. induction l as [|a r IH]; intros xs; cbn.
  - split; [intros [= <-]; constructor|inversion 1; auto].
  - split.
    + destruct (f a) eqn:E; [|discriminate]. destruct (mapO f r) as [ys|]; [|discriminate].
      intros [= <-]. constructor; auto. apply IH. auto.
    + inversion 1; subst. rewrite H2. apply IH in H4. rewrite H4. auto.
Qed.
Lemma mapO_map {A} (f : json -> option A) (s : A -> json) xs : Forall (okR f s) xs -> mapO f (map s xs) = Some xs.
Proof. intros H. apply mapO_Forall2. induction H; cbn; constructor; auto. Qed.

Lemma mapO_inv {A} {f : json -> option A} {s} {R : RT f s} l xs :
  Forall json_ok l -> mapO f l = Some xs -> Forall (okR f s) xs.
Proof.
  intros O H. apply mapO_Forall2 in H. revert O. induction H as [|j x l xs H _ IH]; intros O; [constructor|].
  inversion O; subst. constructor; auto. apply (R j x); auto.
Qed.
Lemma list_ok j l : json_ok j -> j = JArr l -> Forall json_ok l.
Proof. intros O ->. inversion O; auto. Qed.
#[export] Instance rt_list {A} {f : json -> option A} {s} {R : RT f s} : RT (de_list f) (ser_list s).
Proof.
  intros j xs O H. split; [|discriminate]. destruct j as [| | | | |l|]; try discriminate. cbn in H |- *.
  apply mapO_map. apply (mapO_inv l); auto. inversion O; auto.
Qed.
#[export] Instance rt_floats : RT de_floats ser_floats. Proof. exact rt_list. Qed.

(** * Constants *)
Ltac rt_code := intros j x _ _; split; [destruct x; reflexivity|discriminate].
#[export] Instance rt_bool_int : RT de_bool_int ser_bool_int. Proof. rt_code. Qed.
#[export] Instance rt_blend : RT de_blend ser_blend. Proof. rt_code. Qed.
#[export] Instance rt_matte_mode : RT de_matte_mode ser_matte_mode. Proof. rt_code. Qed.
#[export] Instance rt_line_cap : RT de_line_cap ser_line_cap. Proof. rt_code. Qed.
#[export] Instance rt_line_join : RT de_line_join ser_line_join. Proof. rt_code. Qed.
#[export] Instance rt_fill_rule : RT de_fill_rule ser_fill_rule. Proof. rt_code. Qed.
#[export] Instance rt_gradient_type : RT de_gradient_type ser_gradient_type. Proof. rt_code. Qed.
#[export] Instance rt_star_type : RT de_star_type ser_star_type. Proof. rt_code. Qed.
#[export] Instance rt_shape_direction : RT de_shape_direction ser_shape_direction. Proof. rt_code. Qed.
#[export] Instance rt_merge_mode : RT de_merge_mode ser_merge_mode. Proof. rt_code. Qed.
#[export] Instance rt_composite : RT de_composite ser_composite. Proof. rt_code. Qed.
#[export] Instance rt_trim_multiple : RT de_trim_multiple ser_trim_multiple. Proof. rt_code. Qed.
#[export] Instance rt_mask_mode : RT de_mask_mode ser_mask_mode. Proof. rt_code. Qed.
#[export] Instance rt_dash_type : RT de_dash_type ser_dash_type. Proof. rt_code. Qed.

(** * Animated properties *)
Lemma ser_f64_finite x : okR de_f64 ser_f64 x -> ser_f64 x = JFloat x.
Proof. unfold okR, ser_f64. destruct (is_finite x); [auto|discriminate]. Qed.
#[export] Instance rt_kf_component : RT de_kf_component ser_kf_component.
Proof.
  intros j x O H. unfold de_kf_component in H. destruct (de_floats j) as [l|] eqn:E.
  - fin H. split; [|discriminate]. unfold de_kf_component, ser_kf_component.
    rewrite (proj1 (rt_floats j l O E)). reflexivity.
  - destruct (de_f64 j) as [y|] eqn:E2; [|discriminate]. fin H. cbn [ser_kf_component].
    rewrite ser_f64_finite by exact (proj1 (rt_f64 j y O E2)). split; [reflexivity|discriminate].
Qed.
#[export] Instance rt_kf_handle : RT de_kf_handle ser_kf_handle.
Proof.
  intros j x O H. unfold de_kf_handle in H. inv_de H. inv_fields. fin H. split; [|discriminate].
  unfold de_kf_handle, ser_kf_handle. cbn [kh_x kh_y as_struct]. repeat put. reflexivity.
Qed.
Ltac flat := repeat rewrite <- app_assoc.
Ltac start H := intros j x O H.
Ltac opened H := inv_de H; inv_fields; fin H;
  repeat match goal with E : Some _ = Some _ |- _ => fin E end; split; [|discriminate].
Ltac build := flat; try name; repeat put; reflexivity.

Ltac prj := cbn [kb_time kb_hold kb_in kb_out kf_b kf_value kf_end ap_ix ap_a ap_x ap_sid ap_k md_p md_l
  gc_k gc_p pk_kf pk_ti pk_to po_ix po_a po_x po_l po_k spv_s spv_x spv_y spv_z bz_closed bz_v bz_i bz_o
  skf_b skf_s skf_e sp_ix sp_a sp_x sp_k vo_nm vo_mn slo_sid mr_cm mr_tm mr_dr tf_a tf_p tf_s tf_r tf_sk tf_sa tf_o
  mas_nm mas_mn mas_inv mas_pt mas_o mas_mode mas_x ge_vo ge_hd ge_bm ge_ix ge_cl ge_ln ge_ind ss_ge ss_d
  sst_ge sst_o da_vo da_n da_v bs_lc bs_lj bs_ml bs_ml2 bs_w bs_d bg_g bg_s bg_e bg_t bg_h bg_a trs_ge trs_t
  rtr_t rtr_so rtr_eo sl_vo sl_ddd sl_hd sl_ty sl_ind sl_parent sl_sr sl_ip sl_op sl_st vl_layer vl_tt vl_td
  vl_masks vl_ks vl_ao vl_tp vl_has_mask vl_mb vl_bm vl_cl vl_ln vl_tg vl_cp vl_ct ass_id ass_vo fa_asset fa_u
  fa_p fa_e me_a me_d me_tc me_g me_k ani_vo ani_layers ani_v ani_ver ani_fr ani_ip ani_op ani_w ani_h ani_ddd
  ani_assets ani_markers ani_meta ani_metadata as_map as_struct as_struct_default].

#[export] Instance rt_keyframe : RT de_keyframe ser_keyframe.
Proof.
  start H. unfold de_keyframe, de_keyframe_fs, de_kf_base in H. opened H.
  unfold de_keyframe, de_keyframe_fs, de_kf_base, ser_keyframe, ser_keyframe_fs, ser_kf_base. prj. build.
Qed.
Class StaticOk {T} (f : json -> option T) (s : T -> json) : Prop :=
  static_ok : forall j x, json_ok j -> f j = Some x -> de_list de_keyframe j = None -> de_list de_keyframe (s x) = None.
#[export] Instance static_f64 : StaticOk de_f64 ser_f64.
Proof. intros j x O H _. rewrite ser_f64_finite by exact (proj1 (rt_f64 j x O H)). reflexivity. Qed.
Lemma floats_read_as {A} (f : json -> option A) (g : forall x, f (JFloat x) = None) j l :
  json_ok j -> de_floats j = Some l -> de_list f j = None -> de_list f (ser_floats l) = None.
Proof.
  intros O H N. destruct l as [|x r].
  - destruct j as [| | | | |[|y q]|]; try discriminate. cbn in H.
    destruct (de_f64 y); [|discriminate]. destruct (mapO de_f64 q); discriminate.
  - pose proof (proj1 (rt_floats j _ O H)) as K. cbn in K |- *.
    destruct (de_f64 (ser_f64 x)) as [z|] eqn:Z; [|discriminate].
    change ((fix go (l : list json) := match l with
      | [] => Some [] | x0 :: r0 => let? y := de_f64 x0 in let? ys := go r0 in Some (y :: ys) end)) with (mapO de_f64) in K.
    destruct (mapO de_f64 (map ser_f64 r)); [|discriminate]. injection K as -> ->.
    rewrite ser_f64_finite by exact Z. rewrite g. reflexivity.
Qed.
#[export] Instance static_floats : StaticOk de_floats ser_floats.
Proof. intros j x. apply floats_read_as. reflexivity. Qed.
#[export] Instance rt_anim_k {T} (f : json -> option T) s {R : RT f s} {S : StaticOk f s} : RT (de_anim_k f) (ser_anim_k s).
Proof.
  intros j x O H. unfold de_anim_k in H. destruct (de_list de_keyframe j) as [l|] eqn:E.
  - fin H. unfold de_anim_k, ser_anim_k. rewrite (proj1 (rt_list j l O E)). split; [reflexivity|discriminate].
  - destruct (f j) as [y|] eqn:E2; [|discriminate]. fin H. unfold de_anim_k, ser_anim_k.
    rewrite (S j y O E2 E). destruct (R j y O E2) as [-> N]. split; auto.
Qed.
#[export] Instance rt_float_value : RT de_float_value ser_float_value.
Proof.
  start H. unfold de_float_value, de_anim_prop in H. opened H.
  unfold de_float_value, de_anim_prop, ser_float_value, ser_anim_prop. prj. build.
Qed.
#[export] Instance rt_color_value : RT de_color_value ser_color_value.
Proof.
  start H. unfold de_color_value, de_anim_prop in H. opened H.
  unfold de_color_value, de_anim_prop, ser_color_value, ser_anim_prop. prj. build.
Qed.
#[export] Instance rt_multi_dim : RT de_multi_dim ser_multi_dim.
Proof.
  start H. unfold de_multi_dim, de_anim_prop in H. opened H.
  unfold de_multi_dim, de_anim_prop, ser_multi_dim, ser_anim_prop. prj. build.
Qed.
#[export] Instance rt_gradient_colors : RT de_gradient_colors ser_gradient_colors.
Proof.
  start H. unfold de_gradient_colors in H. opened H. unfold de_gradient_colors, ser_gradient_colors. prj. build.
Qed.
#[export] Instance rt_pos_keyframe : RT de_pos_keyframe ser_pos_keyframe.
Proof.
  start H. unfold de_pos_keyframe, de_keyframe_fs, de_kf_base in H. opened H.
  unfold de_pos_keyframe, de_keyframe_fs, de_kf_base, ser_pos_keyframe, ser_keyframe_fs, ser_kf_base. prj. build.
Qed.
#[export] Instance rt_position_k : RT de_position_k ser_position_k.
Proof.
  intros j x O H. unfold de_position_k in H. destruct (de_list de_pos_keyframe j) as [l|] eqn:E.
  - fin H. unfold de_position_k, ser_position_k. rewrite (proj1 (rt_list j l O E)). split; [reflexivity|discriminate].
  - destruct (de_floats j) as [y|] eqn:E2; [|discriminate]. fin H. unfold de_position_k, ser_position_k.
    rewrite (floats_read_as de_pos_keyframe (fun _ => eq_refl) j y O E2 E).
    destruct (rt_floats j y O E2) as [-> N]. split; auto.
Qed.
#[export] Instance rt_position : RT de_position ser_position.
Proof. start H. unfold de_position in H. opened H. unfold de_position, ser_position. prj. build. Qed.
#[export] Instance rt_split_vector : RT de_split_vector ser_split_vector.
Proof. start H. unfold de_split_vector in H. opened H. unfold de_split_vector, ser_split_vector. prj. build. Qed.
#[export] Instance rt_vertex : RT de_vertex ser_vertex.
Proof.
  start H. unfold de_vertex in H. destruct (de_floats j) as [l|] eqn:E; [|discriminate].
  destruct l as [|a [|b [|]]]; try discriminate. fin H. split; [|discriminate].
  pose proof (proj1 (rt_floats j _ O E)) as K. unfold de_vertex.
  change (ser_vertex (a, b)) with (ser_floats [a; b]). rewrite K. reflexivity.
Qed.
#[export] Instance rt_bezier : RT de_bezier ser_bezier.
Proof. start H. unfold de_bezier in H. opened H. unfold de_bezier, ser_bezier. prj. build. Qed.
#[export] Instance rt_shape_keyframe : RT de_shape_keyframe ser_shape_keyframe.
Proof.
  start H. unfold de_shape_keyframe, de_kf_base in H. opened H.
  unfold de_shape_keyframe, de_kf_base, ser_shape_keyframe, ser_kf_base. prj. build.
Qed.
Lemma deserialize_keyframes_list j ks : deserialize_keyframes j = Some ks -> de_list de_shape_keyframe j = Some ks.
Proof.
  unfold deserialize_keyframes. destruct (de_list de_shape_keyframe j) as [[|k r]|]; try discriminate; auto.
  repeat (match goal with |- context [if ?b then _ else _] => destruct b end; try discriminate); auto.
Qed.
Lemma deserialize_keyframes_again j j' ks :
  deserialize_keyframes j = Some ks -> de_list de_shape_keyframe j' = Some ks -> deserialize_keyframes j' = Some ks.
Proof.
  intros H H'. pose proof (deserialize_keyframes_list _ _ H) as L. unfold deserialize_keyframes in *.
  rewrite H'. rewrite L in H. exact H.
Qed.
#[export] Instance rt_shape_k : RT de_shape_k ser_shape_k.
Proof.
  intros j x O H. unfold de_shape_k in H. destruct (deserialize_keyframes j) as [l|] eqn:E.
  - fin H. unfold de_shape_k, ser_shape_k. split; [|discriminate].
    pose proof (deserialize_keyframes_list _ _ E) as L.
    rewrite (deserialize_keyframes_again j _ l E (proj1 (rt_list j l O L))). reflexivity.
  - destruct (de_bezier j) as [b|] eqn:E2; [|discriminate]. fin H. unfold de_shape_k, ser_shape_k.
    replace (deserialize_keyframes (ser_bezier b)) with (@None (list shape_keyframe)) by reflexivity.
    destruct (rt_bezier j b O E2) as [-> N]. split; auto.
Qed.
#[export] Instance rt_shape_prop : RT de_shape_prop ser_shape_prop.
Proof. start H. unfold de_shape_prop in H. opened H. unfold de_shape_prop, ser_shape_prop. prj. build. Qed.

(** * Helpers *)
#[export] Instance rt_marker : RT de_marker ser_marker.
Proof. start H. unfold de_marker in H. opened H. unfold de_marker, ser_marker. prj. build. Qed.
Lemma position_needs_k fs : member "k" fs = None -> de_position (JObj fs) = None.
Proof.
  intros M. unfold de_position. cbn [as_struct].
  repeat (match goal with |- match opt ?k ?f fs with _ => _ end = None => destruct (opt k f fs); [|reflexivity] end).
  rewrite req_member, M. reflexivity.
Qed.
Lemma float_value_needs_k fs : member "k" fs = None -> de_float_value (JObj fs) = None.
Proof.
  intros M. unfold de_float_value, de_anim_prop. cbn [as_map].
  repeat (match goal with |- match opt ?k ?f fs with _ => _ end = None => destruct (opt k f fs); [|reflexivity] end).
  rewrite req_member, M. reflexivity.
Qed.
#[export] Instance rt_any_p : RT de_any_p ser_any_p.
Proof.
  intros j x O H. unfold de_any_p in H. destruct (de_position j) as [p|] eqn:E.
  - fin H. unfold de_any_p, ser_any_p. destruct (rt_position j p O E) as [-> N]. split; auto.
  - destruct (de_split_vector j) as [v|] eqn:E2; [|discriminate]. fin H. unfold de_any_p, ser_any_p.
    unfold ser_split_vector at 1. rewrite position_needs_k by (members; reflexivity).
    destruct (rt_split_vector j v O E2) as [-> N]. split; auto.
Qed.
#[export] Instance rt_any_r : RT de_any_r ser_any_r.
Proof.
  intros j x O H. unfold de_any_r in H. destruct (de_float_value j) as [p|] eqn:E.
  - fin H. unfold de_any_r, ser_any_r. destruct (rt_float_value j p O E) as [-> N]. split; auto.
  - unfold de_split_rotation in H. opened H. unfold de_any_r, ser_any_r.
    rewrite float_value_needs_k by (members; reflexivity). unfold de_split_rotation. prj. build.
Qed.
#[export] Instance rt_transform : RT de_transform ser_transform.
Proof.
  start H. unfold de_transform, de_transform_fs in H. opened H.
  unfold de_transform, de_transform_fs, ser_transform, ser_transform_fs. prj. build.
Qed.
#[export] Instance rt_mask : RT de_mask ser_mask.
Proof. start H. unfold de_mask in H. opened H. unfold de_mask, ser_mask. prj. build. Qed.
