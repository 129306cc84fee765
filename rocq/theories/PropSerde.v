(** The document as JSON: C45, C46 (the validation it relies on), C47, C48. *)
From Coq Require Import ZArith Reals Bool List Arith String Lia.
From Flocq Require Import Core BinarySingleNaN.
From Verif Require Import F64 Kurbo Value Animated Schema Import ImportSpec Serde SerdeSpec SerdeFacts SerdeFacts2 SerdeFacts3 PropImport2.
Import ListNotations.
Local Open Scope string_scope.
Local Open Scope list_scope.
Local Open Scope nat_scope.

(** * C45: layer dispatch *)
Theorem C45_dispatch : forall j l, de_layer j = Some l ->
  exists fs n, j = JObj fs /\ member "ty" fs = Some (JInt n) /\ In (n, kind_of l) layer_codes.
Proof.
  intros j l H. unfold de_layer in H. destruct j as [| | | | | |fs]; try discriminate. cbn [as_map] in H.
  destruct (layer_type fs) as [ty|] eqn:Lt; [|discriminate]. exists fs, ty. split; auto.
  apply layer_type_member in Lt. destruct Lt as [Lt _]. split; auto.
  assert (C : ty = 0%Z \/ ty = 1%Z \/ ty = 2%Z \/ ty = 3%Z \/ ty = 4%Z).
  { destruct ty as [|[[]|[[]|[]|]|]|]; auto 6; discriminate H. }
  destruct C as [->|[->|[->|[->| ->]]]]; cbn iota in H;
    repeat match type of H with match ?e with Some _ => _ | None => None end = _ => destruct e; [|discriminate] end;
    injection H as <-; cbn; auto 6.
Qed.
(** missing, not an integer, or any other integer: an error *)
Theorem C45_otherwise_error : forall fs,
  (forall n, member "ty" fs = Some (JInt n) -> (n < 0 \/ 4 < n)%Z) -> de_layer (JObj fs) = None.
Proof.
  intros fs N. destruct (de_layer (JObj fs)) as [l|] eqn:E; auto. destruct (C45_dispatch _ _ E) as (fs' & n & [= <-] & M & C).
  specialize (N n M). cbn in C. repeat (destruct C as [[= <- _]|C]; [lia|]). destruct C.
Qed.
Theorem C45_not_an_object : forall j, (forall fs, j <> JObj fs) -> de_layer j = None.
Proof. intros [| | | | | |fs] H; auto. destruct (H fs eq_refl). Qed.

(** * C46: what the deserialiser guarantees about animated paths *)
Lemma last_nth {A} (l : list A) : last (map Some l) None = nth_error l (List.length l - 1).
Proof.
  induction l as [|a [|b r] IH]; auto. cbn [map last List.length] in *. rewrite IH. cbn [Nat.sub].
  rewrite Nat.sub_0_r. reflexivity.
Qed.
Lemma removelast_nth {A} (l : list A) i x : nth_error l i = Some x -> S i < List.length l -> In x (removelast l).
Proof.
  revert i. induction l as [|a [|b r] IH]; intros i H L; [destruct i; discriminate|cbn in L; lia|].
  destruct i as [|i]; cbn [nth_error] in H; cbn [removelast].
  - injection H as ->. left. auto.
  - right. apply (IH i H). cbn [List.length] in *. lia.
Qed.
Lemma keyframes_read j ks : deserialize_keyframes j = Some ks -> keyframes_validated ks.
Proof.
  unfold deserialize_keyframes. destruct (de_list de_shape_keyframe j) as [[|k0 r]|]; try discriminate.
  { intros [= <-] i k H. destruct i; discriminate. }
  set (l := k0 :: r). destruct (forallb (fun k => is_some (skf_s k)) (removelast l)) eqn:A; cbn [negb]; [|discriminate].
  assert (V : forall i k, nth_error l i = Some k -> skf_s k = None -> S i = List.length l).
  { intros i k H N. assert (i < List.length l) by (apply nth_error_Some; congruence).
    destruct (Nat.eq_dec (S i) (List.length l)); auto.
    rewrite forallb_forall in A. specialize (A k (removelast_nth l i k H ltac:(lia))). rewrite N in A. discriminate. }
  intros H. assert (W : ks = l /\ (List.length l < 2 -> forall k, nth_error l (List.length l - 1) = Some k -> skf_s k <> None)).
  { rewrite last_nth in H. destruct (nth_error l (List.length l - 1)) as [k|] eqn:La.
    - destruct (skf_s k) as [s|] eqn:Sk; cbn [is_some] in H.
      + split; [congruence|]. intros _ k' [= <-]. congruence.
      + destruct (List.length l <? 2)%nat eqn:L2; [discriminate|]. apply Nat.ltb_ge in L2. split; [congruence|lia].
    - destruct (List.length l <? 2)%nat eqn:L2; [discriminate|]. apply Nat.ltb_ge in L2. split; [congruence|lia]. }
  destruct W as [-> W]. intros i k Hi N. pose proof (V i k Hi N) as E. split; [|exact E].
  destruct i; [|lia]. exfalso. apply (W ltac:(lia) k); [|exact N]. rewrite <- E. exact Hi.
Qed.

Definition path_validated (p : shape_prop) : Prop := forall ks, sp_k p = SkAnimated ks -> keyframes_validated ks.
Lemma shape_prop_read j p : de_shape_prop j = Some p -> path_validated p.
Proof.
  intros H ks K. unfold de_shape_prop in H. inv_de H. fin H. cbn [sp_k] in K. subst.
  match goal with E : req "k" de_shape_k _ = Some _ |- _ => rewrite req_member in E; destruct (member "k" _) as [v|]; [|discriminate];
    unfold de_shape_k in E end.
  destruct (deserialize_keyframes v) as [l'|] eqn:D.
  - match goal with E : Some _ = Some _ |- _ => injection E as -> end. exact (keyframes_read _ _ D).
  - destruct (de_bezier v); discriminate.
Qed.
Definition paths_validated (j : json) : Prop :=
  forall n x p, de_shape n j = Some x -> path_in_shape p x -> path_validated p.
Lemma shape_read : forall j, paths_validated j /\ forall l, j = JArr l -> Forall paths_validated l.
Proof.
  induction j using json_ind'; (split; [|try discriminate]); try (intros n0 y p E; discriminate E).
  - intros l' [= <-]. eapply Forall_impl; [|exact H]. cbn. tauto.
  - intros n x p D P. cbn [de_shape] in D. destruct (req "ty" (de_tag n) fs) as [[]|]; try discriminate;
      repeat match type of D with match ?e with Some _ => _ | None => None end = _ =>
        let E := fresh "E" in destruct e eqn:E; [|discriminate] end;
      injection D as <-; inversion P; subst.
    + rewrite req_member in E1. destruct (member "it" fs) as [v|] eqn:M; [|discriminate].
      destruct v as [| | | | |vs|]; try discriminate. cbn [de_list] in E1. apply mapO_Forall2 in E1.
      assert (Iv : Forall paths_validated vs).
      { clear - H M. revert M. induction H as [|[k w] r Hw _ IH]; cbn [member]; [discriminate|].
        destruct (String.eqb "it" k); auto. intros [= ->]. cbn in Hw. apply (proj2 Hw). reflexivity. }
      match goal with I : In ?x l |- _ => rename I into In_ end. clear M P H.
      induction E1 as [|v y vs ys Hv _ IH]; [destruct In_|]. inversion Iv; subst.
      destruct In_ as [<-|In_]; auto. match goal with A : paths_validated v |- _ => eapply A; eauto end.
    + match goal with E : req "ks" _ _ = Some _ |- _ => rewrite req_member in E; destruct (member "ks" _); [|discriminate];
        exact (shape_prop_read _ _ E) end.
Qed.
Lemma list_read {A} (f : json -> option A) j xs x : de_list f j = Some xs -> In x xs -> exists v, f v = Some x.
Proof.
  destruct j as [| | | | |l|]; try discriminate. cbn [de_list]. intros H. apply mapO_Forall2 in H.
  induction H as [|v y l ys Hv _ IH]; [intros []|]. intros [<-|I]; eauto.
Qed.
Lemma req_read {A} k (f : json -> option A) fs x : req k f fs = Some x -> exists v, f v = Some x.
Proof. rewrite req_member. destruct (member k fs); eauto. discriminate. Qed.
Lemma opt_read {A} k (f : json -> option A) fs x : opt k f fs = Some (Some x) -> exists v, f v = Some x.
Proof.
  rewrite opt_member. destruct (member k fs) as [v|]; [|discriminate].
  destruct v; try discriminate; match goal with |- context [f ?v] => destruct (f v) eqn:E end; intros [= <-]; eauto.
Qed.
Lemma visual_read b fs v masks m p : de_visual_layer b fs = Some v -> vl_masks v = Some masks -> In m masks ->
  mas_pt m = Some p -> path_validated p.
Proof.
  intros H M I P. unfold de_visual_layer in H.
  repeat match type of H with match ?e with Some _ => _ | None => None end = _ =>
        let E := fresh "E" in destruct e eqn:E; [|discriminate] end.
  injection H as <-. cbn [vl_masks] in M. subst. apply opt_read in E2. destruct E2 as [j E2].
  destruct (list_read _ _ _ _ E2 I) as [v X]. unfold de_mask in X. clear - X P.
  repeat match type of X with match ?e with Some _ => _ | None => None end = _ =>
        let E := fresh "E" in destruct e eqn:E; [|discriminate] end.
  injection X as <-. cbn [mas_pt] in P. subst.
  match goal with E : opt "pt" _ _ = Some _ |- _ => apply opt_read in E; destruct E as [w E]; exact (shape_prop_read _ _ E) end.
Qed.
Lemma layer_read j l p : de_layer j = Some l -> path_in_layer p l -> path_validated p.
Proof.
  intros H P. assert (C : exists b fs, de_visual_layer b fs = Some (visual_of l) /\
     forall vl shapes, l = AlShape vl shapes -> exists v, de_list (de_shape false) v = Some shapes).
  { unfold de_layer in H. destruct (as_map j) as [fs|]; [|discriminate]. destruct (layer_type fs) as [ty|]; [|discriminate].
    assert (C : ty = 0%Z \/ ty = 1%Z \/ ty = 2%Z \/ ty = 3%Z \/ ty = 4%Z).
    { destruct ty as [|[[]|[[]|[]|]|]|]; auto 6; discriminate H. }
    destruct C as [->|[->|[->|[->| ->]]]]; cbn iota in H;
      repeat match type of H with match ?e with Some _ => _ | None => None end = _ =>
        let E := fresh "E" in destruct e eqn:E; [|discriminate] end;
      injection H as <-; cbn [visual_of]; eexists _, _; (split; [eassumption|]); intros vl shapes [= <- <-].
    eapply req_read; eauto. }
  destruct C as (b & fs & V & S). inversion P; subst.
  - destruct (S _ _ eq_refl) as [v E]. destruct (list_read _ _ _ _ E H0) as [w Hw]. exact (proj1 (shape_read w) false x p Hw H1).
  - eapply visual_read; eauto.
Qed.
Theorem C46_read : forall j a p ks, de_animation j = Some a -> path_in_document p a -> sp_k p = SkAnimated ks ->
  keyframes_validated ks.
Proof.
  intros j a p ks H P. enough (V : path_validated p) by (intros; apply V; auto).
  unfold de_animation in H.
  repeat match type of H with match ?e with Some _ => _ | None => None end = _ =>
        let E := fresh "E" in destruct e eqn:E; [|discriminate] end.
  injection H as <-. destruct P as [(l' & I & P)|(assets & ass & layers & fr & xt & l' & As & I & Il & P)]; cbn [ani_layers ani_assets] in *.
  - destruct (req_read _ _ _ _ E1) as [v' Hv]. destruct (list_read _ _ _ _ Hv I) as [w Hw]. exact (layer_read w l' p Hw P).
  - subst. match goal with E : opt "assets" _ _ = Some _ |- _ => destruct (opt_read _ _ _ _ E) as [v' Hv] end. destruct (list_read _ _ _ _ Hv I) as [w Hw].
    unfold de_any_asset in Hw. destruct (as_map w) as [fs|]; [|discriminate].
    destruct (has "layers" fs).
    + destruct (de_asset fs); [|discriminate]. destruct (req "layers" (de_list de_layer) fs) as [ls|] eqn:Ls; [|discriminate].
      destruct (opt "fr" de_f64 fs); [|discriminate]. destruct (opt "xt" de_bool_int fs); [|discriminate].
      injection Hw as -> -> -> ->. destruct (req_read _ _ _ _ Ls) as [u Hu]. destruct (list_read _ _ _ _ Hu Il) as [lj Hl].
      exact (layer_read lj l' p Hl P).
    + repeat match type of Hw with
        | (if ?b then _ else _) = _ => destruct b; try discriminate
        | match ?e with Some _ => _ | None => None end = _ => destruct e; [|discriminate] end.
      all: discriminate Hw.
Qed.
Theorem C46_read_no_failure : forall E j a p ks sh, de_animation j = Some a -> path_in_document p a ->
  sp_k p = SkAnimated ks -> handles_supported ks -> exists o, conv_shape E (AsPath sh p) = Ok o.
Proof. intros. eapply C46_no_failure; eauto using C46_read. Qed.

(** * C47: constants *)
Ltac read_codes H :=
  match type of H with ?f (JInt ?n) = Some _ =>
    destruct n as [|n|n]; try discriminate H; repeat (destruct n as [n|n|]; try discriminate H);
    injection H as <-; cbn; tauto
  end.
Ltac code :=
  split; [|split; [|split]];
  [ intros j x; split;
    [ intros H; destruct j as [| |n| | | |]; try discriminate H; exists n; split; [reflexivity|]; read_codes H
    | intros (n & -> & H); cbn in H; repeat (destruct H as [[= <- <-]|H]; [reflexivity|]); destruct H ]
  | intros x; destruct x; eexists; (split; [reflexivity|]); cbn; tauto
  | intros x; destruct x; reflexivity
  | intros n n' x H H'; destruct x; cbn in H, H'; intuition congruence ].
Theorem C47_bool_int : coded bool_int_codes de_bool_int ser_bool_int. Proof. code. Qed.
Theorem C47_blend : coded blend_codes de_blend ser_blend. Proof. code. Qed.
Theorem C47_matte_mode : coded matte_codes de_matte_mode ser_matte_mode. Proof. code. Qed.
Theorem C47_line_cap : coded cap_codes de_line_cap ser_line_cap. Proof. code. Qed.
Theorem C47_line_join : coded join_codes de_line_join ser_line_join. Proof. code. Qed.
Theorem C47_fill_rule : coded rule_codes de_fill_rule ser_fill_rule. Proof. code. Qed.
Theorem C47_gradient_type : coded gradient_codes de_gradient_type ser_gradient_type. Proof. code. Qed.
Theorem C47_star_type : coded star_codes de_star_type ser_star_type. Proof. code. Qed.
Theorem C47_shape_direction : coded direction_codes de_shape_direction ser_shape_direction. Proof. code. Qed.
Theorem C47_merge_mode : coded merge_codes de_merge_mode ser_merge_mode. Proof. code. Qed.
Theorem C47_composite : coded composite_codes de_composite ser_composite. Proof. code. Qed.
Theorem C47_trim_multiple : coded trim_codes de_trim_multiple ser_trim_multiple. Proof. code. Qed.
Lemma variant_name_shape b j s : variant_name b j = Some s -> j = JStr s \/ exists v, j = JObj [(s, v)].
Proof.
  destruct j as [| | | |t| |[|[k v] [|]]]; cbn; try discriminate.
  - intros [= ->]. auto.
  - destruct v as [| | | | | |[|]]; try discriminate; [intros [= ->]; eauto|]. destruct b; [|discriminate]. intros [= ->]. eauto.
  - destruct v as [| | | | | |[|]]; discriminate.
Qed.
Ltac pick H :=
  repeat match type of H with (if String.eqb ?s ?t then _ else _) = _ =>
    destruct (String.eqb s t) eqn:?; [injection H as <-;
      match goal with E : String.eqb s t = true |- _ => apply String.eqb_eq in E; subst end; cbn; tauto|] end;
  discriminate H.
Theorem C47_mask_mode : SerdeSpec.named mask_names de_mask_mode ser_mask_mode.
Proof.
  split; [|split; [|split]].
  - intros s x. split.
    + intros H. unfold de_mask_mode in H. cbn [variant_name] in H. pick H.
    + intros H. cbn in H. repeat (destruct H as [[= <- <-]|H]; [reflexivity|]). destruct H.
  - intros j x H. unfold de_mask_mode in H. destruct (variant_name false j) as [s|] eqn:V; [|discriminate].
    exists s. split; [pick H|]. exact (variant_name_shape _ _ _ V).
  - intros []; eexists; (split; [reflexivity|]); cbn; tauto.
  - intros []; reflexivity.
Qed.
Theorem C47_dash_type : SerdeSpec.named dash_names de_dash_type ser_dash_type.
Proof.
  split; [|split; [|split]].
  - intros s x. split.
    + intros H. unfold de_dash_type in H. cbn [variant_name] in H. pick H.
    + intros H. cbn in H. repeat (destruct H as [[= <- <-]|H]; [reflexivity|]). destruct H.
  - intros j x H. unfold de_dash_type in H. destruct (variant_name true j) as [s|] eqn:V; [|discriminate].
    exists s. split; [pick H|]. exact (variant_name_shape _ _ _ V).
  - intros []; eexists; (split; [reflexivity|]); cbn; tauto.
  - intros []; reflexivity.
Qed.

(** * C48: round trip *)

(** Any document read from a [serde_json::Value] is read again from what it
    is written to, provided its image assets give a width or a height. *)
Theorem C48_document_partial : forall j a, json_ok j -> de_animation j = Some a -> images_sized a ->
  de_animation (ser_animation a) = Some a.
Proof. intros j a O H S. exact (rt_animation j a O S H). Qed.
Theorem C48_layer : forall j l, json_ok j -> de_layer j = Some l -> de_layer (ser_layer l) = Some l.
Proof. intros j l O H. exact (proj1 (rt_layer j l O H)). Qed.
Theorem C48_shape : forall nested j s, json_ok j -> de_shape nested j = Some s -> de_shape nested (ser_shape s) = Some s.
Proof. intros n j s O H. exact (proj1 (rt_shape n j s O H)). Qed.

(** a document with most parts; members that velato ignores included *)
Definition num (n : Z) : json := JInt n.
Definition jprop (v : json) : json := JObj [("a", num 0); ("k", v)].
Definition jvec (x y : Z) : json := jprop (JArr [num x; num y]).
Definition jkf (t : Z) (v : json) : json :=
  JObj [("t", num t); ("s", v); ("i", JObj [("x", JArr [JFloat f_half]); ("y", JFloat f_half)]);
        ("o", JArr [JFloat f_half; num 0])].
Definition jbez : json :=
  JObj [("c", JBool true); ("v", JArr [JArr [num 0; num 0]; JArr [num 10; num 0]]);
        ("i", JArr [JArr [num 0; num 0]; JArr [num 0; num 0]]); ("o", JArr [JArr [num 0; num 0]; JArr [num 0; num 0]])].
Definition jpath : json :=
  JObj [("a", num 1); ("k", JArr [JObj [("t", num 0); ("s", JArr [jbez])]; JObj [("t", num 9)]])].
Definition jtransform : list (string * json) :=
  [("a", jvec 0 0); ("p", JObj [("a", num 1); ("k", JArr [jkf 0 (JArr [num 1; num 2]); jkf 30 (JArr [num 3; num 4])])]);
   ("s", jvec 100 100); ("r", jprop (num 0)); ("o", jprop (num 100))].
Definition jvisual (ty : Z) : list (string * json) :=
  [("ty", num ty); ("nm", JStr "layer"); ("ddd", num 0); ("ind", num 1); ("ip", num 0); ("op", num 60); ("st", num 0);
   ("ks", JObj jtransform); ("bm", num 0); ("hasMask", JBool true); ("vendor", JStr "ignored");
   ("masksProperties", JArr [JObj [("inv", JBool false); ("mode", JStr "a"); ("pt", jpath); ("o", jprop (num 100))]])].
Definition jshapes : json :=
  JArr [JObj [("ty", JStr "gr"); ("np", num 3);
     ("it", JArr [JObj [("ty", JStr "rc"); ("p", jvec 0 0); ("s", jvec 10 10); ("r", jprop (num 0)); ("d", num 1)];
                  JObj [("ty", JStr "sh"); ("ks", jpath)];
                  JObj [("ty", num 9); ("c", jprop (JArr [num 1; num 0; num 0; num 1])); ("o", jprop (num 100)); ("r", num 1)];
                  JObj (("ty", JStr "tr") :: jtransform)])];
   JObj [("ty", JStr "st"); ("c", jprop (JArr [num 0; num 0; num 1; num 1])); ("o", jprop (num 100)); ("w", jprop (num 2));
         ("lc", num 2); ("lj", JNull); ("d", JArr [JObj [("n", JStr "d"); ("v", jprop (num 3))]])]].
Definition jdoc (image : list (string * json)) : json :=
  JObj [("v", JStr "5.5.2"); ("fr", num 60); ("ip", num 0); ("op", num 60); ("w", num 512); ("h", num 512); ("ddd", num 0);
   ("assets", JArr [JObj [("id", JStr "comp"); ("layers", JArr [JObj (jvisual 3)]); ("xt", num 0)];
                    JObj (("id", JStr "img") :: ("p", JStr "img.png") :: image)]);
   ("layers", JArr [JObj (jvisual 4 ++ [("shapes", jshapes)]);
                    JObj (jvisual 1 ++ [("sw", num 5); ("sh", num 6); ("sc", JStr "#ff0000")]);
                    JObj (jvisual 2 ++ [("refId", JStr "img")]);
                    JObj (jvisual 0 ++ [("refId", JStr "comp"); ("w", num 5); ("h", num 6)])]);
   ("markers", JArr [JObj [("cm", JStr "m"); ("tm", num 3)]]);
   ("meta", JObj [("g", JStr "generator"); ("k", JArr [JStr "x"; JNull])]);
   ("metadata", JObj [("custom", JArr [num 1; num 2])])].
(** all that [json_ok] asks, as a test *)
Fixpoint json_okb (j : json) : bool :=
  match j with
  | JInt n => ((- 2 ^ 63 <=? n) && (n <? 2 ^ 64))%Z
  | JFloat x => is_finite x
  | JArr l => forallb json_okb l
  | JObj fs => forallb (fun m => json_okb (snd m)) fs &&
               (fix nodup l := match l with [] => true | k :: r => negb (existsb (String.eqb k) r) && nodup r end) (map fst fs)
  | _ => true
  end.
Lemma json_okb_ok : forall j, json_okb j = true -> json_ok j.
Proof.
  induction j using json_ind'; cbn [json_okb]; intros E; try (constructor; fail).
  - constructor. apply andb_prop in E. destruct E. lia.
  - constructor. auto.
  - constructor. rewrite forallb_forall in E. rewrite Forall_forall in *. auto.
  - apply andb_prop in E. destruct E as [E N]. constructor.
    + rewrite forallb_forall in E. rewrite Forall_forall in *. auto.
    + clear - N. induction (map fst fs) as [|k r IH]; [constructor|]. apply andb_prop in N. destruct N as [N1 N2]. constructor; auto.
      intros I. apply negb_true_iff in N1. assert (existsb (String.eqb k) r = true); [|congruence].
      apply existsb_exists. exists k. split; auto. apply String.eqb_refl.
Qed.
Definition doc_sized : json := jdoc [("w", num 7)].
Example C48_witness : json_ok doc_sized /\ exists a, de_animation doc_sized = Some a /\ images_sized a /\ List.length (ani_layers a) = 4.
Proof.
  split; [apply json_okb_ok; vm_compute; reflexivity|].
  assert (T : match de_animation doc_sized with
              | Some a => (match ani_assets a with
                           | Some l => forallb (fun x => match x with AaImage _ _ w h _ => is_some w || is_some h | _ => true end) l
                           | None => true end) && Nat.eqb (List.length (ani_layers a)) 4
              | None => false end = true) by (vm_compute; reflexivity).
  destruct (de_animation doc_sized) as [a|]; [|discriminate]. exists a. apply andb_prop in T. destruct T as [T L].
  split; auto. split; [|now apply Nat.eqb_eq].
  unfold images_sized. destruct (ani_assets a) as [l|]; auto. rewrite forallb_forall in T. apply Forall_forall. intros x I.
  specialize (T x I). destruct x as [fa sl w h t|]; cbn; auto. destruct w, h; cbn in T; try discriminate; auto; (left; discriminate) || right; discriminate.
Qed.

(** An image whose width or height is present but [null] is read; what it is
    written to is not. *)
Definition doc_unsized : json := jdoc [("w", JNull)].
Theorem C48_refuted : exists j a, json_ok j /\ de_animation j = Some a /\ de_animation (ser_animation a) = None.
Proof.
  exists doc_unsized.
  assert (T : match de_animation doc_unsized with
              | Some a => negb (is_some (de_animation (ser_animation a)))
              | None => false end = true) by (vm_compute; reflexivity).
  destruct (de_animation doc_unsized) as [a|]; [|discriminate]. exists a.
  split; [apply json_okb_ok; vm_compute; reflexivity|]. split; auto.
  destruct (de_animation (ser_animation a)); [discriminate|auto].
Qed.
(** non-vacuity of C45 and C46 *)
Example C45_witness : forallb (fun n : Z => ( match de_layer (JObj (jvisual n ++ [("sw", num 5); ("sh", num 6); ("sc", JStr "#ff0000");
   ("refId", JStr "comp"); ("w", num 5); ("h", num 6); ("shapes", jshapes)])) with
   | Some l => match kind_of l, n with KPrecomp, 0 | KSolid, 1 | KImage, 2 | KNull, 3 | KShape, 4 => true | _, _ => false end
   | None => match n with 0 | 1 | 2 | 3 | 4 => false | _ => true end end)%Z) [0; 1; 2; 3; 4; 5; -1; 256]%Z = true.
Proof. vm_compute. reflexivity. Qed.
Example C46_witness_read : exists a l vl shapes m p, de_animation doc_sized = Some a /\ In l (ani_layers a) /\ l = AlShape vl shapes /\ vl_masks vl = Some [m] /\ mas_pt m = Some p /\ path_in_document p a /\ exists k1 k2, sp_k p = SkAnimated [k1; k2] /\ skf_s k2 = None.
Proof.
  assert (T : match de_animation doc_sized with
              | Some a => match ani_layers a with
                | AlShape vl _ :: _ => match vl_masks vl with
                  | Some [m] => match mas_pt m with
                    | Some p => match sp_k p with SkAnimated [k1; k2] => negb (is_some (skf_s k2)) | _ => false end
                    | None => false end
                  | _ => false end
                | _ => false end
              | None => false end = true) by (vm_compute; reflexivity).
  destruct (de_animation doc_sized) as [a|]; [|discriminate].
  destruct (ani_layers a) as [|[| |vl shapes| |] r] eqn:La; try discriminate.
  destruct (vl_masks vl) as [[|m [|]]|] eqn:Ms; try discriminate. destruct (mas_pt m) as [p|] eqn:Pt; try discriminate.
  destruct (sp_k p) as [[|k1 [|k2 [|]]]|] eqn:K; try discriminate. destruct (skf_s k2) eqn:S2; [discriminate|].
  exists a, (AlShape vl shapes), vl, shapes, m, p. repeat split; auto.
  - rewrite La. left. auto.
  - left. exists (AlShape vl shapes). rewrite La. split; [left; auto|]. eapply pil_mask; [exact Ms|left; auto|auto].
  - exists k1, k2. auto.
Qed.
