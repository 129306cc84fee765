(** Round trip, concluded: layers, assets, documents *)
From Coq Require Import ZArith Reals Bool List String Lia.
From Flocq Require Import Core BinarySingleNaN.
From Verif Require Import F64 F64Facts Schema Serde SerdeSpec SerdeFacts SerdeFacts2.
Import ListNotations.
Local Open Scope string_scope.
Local Open Scope list_scope.

Lemma layer_type_member fs n : layer_type fs = Some n <-> member "ty" fs = Some (JInt n) /\ (0 <= n)%Z.
Proof.
  unfold layer_type. rewrite req_member. destruct (member "ty" fs) as [v|]; [|split; [discriminate|intros [? _]; discriminate]].
  destruct v; try (split; [discriminate|intros [E _]; discriminate E]).
  destruct (0 <=? n0)%Z eqn:L; split; try discriminate.
  - intros [= <-]. split; auto. lia.
  - intros [[= <-] _]. auto.
  - intros [[= <-] K]. lia.
Qed.
Lemma layer_type_again fs n t L : layer_type fs = Some n -> req "ty" de_u8 fs = Some t ->
  member "ty" L = Some (ser_nat t) -> layer_type L = Some n.
Proof.
  intros A B C. apply layer_type_member in A. destruct A as [A N]. rewrite req_member, A in B.
  apply layer_type_member. split; auto. rewrite C. unfold ser_nat. unfold de_u8 in B.
  destruct (de_uint 255 (JInt n)) eqn:D; [|discriminate]. injection B as <-.
  apply de_uint_spec in D. destruct D as [[= <-] _]. rewrite Z2Nat.id; auto.
Qed.

Ltac layer_case Lt :=
  match goal with Ty : req "ty" de_u8 ?fs = Some ?t |- _ =>
    pose proof (fun L => layer_type_again fs _ t L Lt Ty) as LT; clear Lt
  end.
Ltac layer_unfold := unfold ser_visual_layer, ser_s_layer, ser_visual_object; prj; flat.
Ltac layer_build LT :=
  name; unfold de_layer; cbn [as_map];
  match goal with |- context [layer_type ?L] => rewrite (LT L) by (unfold L; find) end;
  clear LT; cbn iota beta; unfold de_visual_layer, de_s_layer, de_visual_object; cbn iota;
  repeat put; reflexivity.

#[export] Instance rt_layer : RT de_layer ser_layer.
Proof.
  intros j x O H. unfold de_layer in H.
  destruct (as_map j) as [fs|] eqn:M; [|discriminate]. pose proof (as_map_ok _ _ O M) as F. clear M.
  destruct (layer_type fs) as [ty|] eqn:Lt; [|discriminate].
  assert (C : ty = 0%Z \/ ty = 1%Z \/ ty = 2%Z \/ ty = 3%Z \/ ty = 4%Z).
  { destruct ty as [|[[]|[[]|[]|]|]|]; auto 6; discriminate H. }
  destruct C as [->|[->|[->|[->| ->]]]]; cbn iota in H;
    unfold de_visual_layer, de_s_layer, de_visual_object in H; cbn iota in H; inv_de H; layer_case Lt; inv_fields;
    repeat match goal with E : Some _ = Some _ |- _ => fin E end; (split; [|discriminate]);
    cbn [ser_layer]; layer_unfold; layer_build LT.
Qed.

(** * Assets *)
Lemma rt_asset_ok j a : json_ok j -> image_sized a -> de_any_asset j = Some a -> okR de_any_asset ser_any_asset a.
Proof.
  intros O S H. unfold de_any_asset in H. destruct (as_map j) as [fs|] eqn:M; [|discriminate].
  pose proof (as_map_ok _ _ O M) as F. clear M O. destruct (has "layers" fs).
  - unfold de_asset, de_visual_object in H. inv_de H. inv_fields. fin H.
    repeat match goal with E : Some _ = Some _ |- _ => fin E end.
    unfold okR, ser_any_asset, ser_asset, ser_visual_object, de_any_asset. prj. flat. cbn iota beta.
    rewrite has_member. members. cbn iota. unfold de_asset, de_visual_object. repeat put. reflexivity.
  - match type of H with (if ?b then None else _) = _ => destruct b; [discriminate|] end.
    destruct (has "w" fs || has "h" fs); [|discriminate].
    unfold de_file_asset, de_asset, de_visual_object, de_slottable in H. inv_de H.
    match goal with E : de_sequence fs = Some ?t |- _ =>
      assert (T : t = Some true \/ t = None) end.
    { unfold de_sequence in *. destruct (has "t" fs); [|right; congruence].
      destruct (req "t" de_string fs) as [z|]; [|discriminate]. destruct (String.eqb z "seq"); [left|right]; congruence. }
    match goal with E : de_sequence fs = Some ?t |- _ => clear E end.
    inv_fields. repeat match goal with E : Some _ = Some _ |- _ => fin E end.
    unfold okR, ser_any_asset, ser_file_asset, ser_asset, ser_visual_object, ser_slottable. prj. flat. name.
    unfold de_any_asset. cbn [as_map].
    assert (Ml : member "layers" L = None) by (unfold L; find).
    eassert (Mt : member "t" L = _) by (unfold L; find).
    eassert (Mw : member "w" L = _) by (unfold L; find).
    eassert (Mh : member "h" L = _) by (unfold L; find).
    rewrite (has_member "layers"), Ml. cbn iota beta.
    unfold de_file_asset, de_asset, de_visual_object, de_slottable, de_sequence.
    rewrite !(req_member "t"), (has_member "t"), (has_member "w"), (has_member "h"), Mt, Mw, Mh. cbn iota beta. cbn [image_sized] in S.
    match type of S with ?w <> None \/ ?h <> None =>
      replace ((if match w with Some x => Some (ser_f64 x) | None => None end then true else false) ||
               (if match h with Some x => Some (ser_f64 x) | None => None end then true else false)) with true
        by (destruct w, h; cbn; auto; destruct S; congruence) end.
    destruct T as [-> | ->]; cbn iota beta.
    + change (match ser_sequence true with JInt 3 => Some tt | _ => None end) with (@None unit). cbn iota.
      clear Ml Mt Mw Mh. repeat put. reflexivity.
    + clear Ml Mt Mw Mh. repeat put. reflexivity.
Qed.

#[export] Instance rt_meta : RT de_meta ser_meta.
Proof. start H. unfold de_meta in H. opened H. unfold de_meta, ser_meta. prj. build. Qed.

(** * The document *)
Lemma rt_animation j a : json_ok j -> images_sized a -> de_animation j = Some a -> de_animation (ser_animation a) = Some a.
Proof.
  intros O S H. unfold de_animation, de_visual_object in H. inv_de H.
  match goal with M : as_map j = Some ?fs |- _ => pose proof (as_map_ok _ _ O M) as F; clear M end.
  match goal with A : opt "assets" _ ?fs = Some ?o |- _ => assert (okO (de_list de_any_asset) (ser_list ser_any_asset) o); [|clear A] end.
  { match goal with A : opt "assets" _ _ = Some ?o |- _ => rename A into As; destruct o as [lst|]; [|exact I] end.
    repeat match goal with E : Some _ = Some _ |- _ => fin E end. unfold images_sized in S. cbn [ani_assets] in S.
    split; [|discriminate]. cbn [de_list ser_list]. apply mapO_map.
    rewrite opt_member in As. destruct (member "assets" _) as [v|] eqn:M; [|discriminate].
    pose proof (member_ok _ _ _ F M) as Ov. destruct v as [| | | | |vs|]; try discriminate.
    cbn [de_list] in As. destruct (mapO de_any_asset vs) as [l'|] eqn:Mp; [|discriminate]. injection As as ->.
    apply mapO_Forall2 in Mp. assert (Ol : Forall json_ok vs) by (inversion Ov; auto). clear M Ov. revert Ol S.
    induction Mp as [|v x vs xs Hv _ IH]; intros Ol S; constructor; inversion Ol; inversion S; subst; auto.
    apply (rt_asset_ok v); auto. }
  inv_fields. repeat match goal with E : Some _ = Some _ |- _ => fin E end. clear S.
  unfold ser_animation, ser_visual_object. prj. flat. name. unfold de_animation, de_visual_object. cbn [as_map].
  repeat put. reflexivity.
Qed.
