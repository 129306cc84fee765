(** C48: exactly which documents survive being written and read again. *)
From Coq Require Import ZArith Bool List String.
From Verif Require Import F64 Kurbo Value Animated Schema Serde SerdeSpec SerdeFacts SerdeFacts2 SerdeFacts3 PropSerde.
Import ListNotations.
Open Scope string_scope.
Open Scope list_scope.

Lemma assets_written a l : ani_assets a = Some l -> exists fs, ser_animation a = JObj fs /\ member "assets" fs = Some (ser_list ser_any_asset l).
Proof.
  intros H. eexists. split; [reflexivity|]. rewrite H. unfold ser_visual_object, fld, ofld.
  destruct (ani_v a), (ani_ver a), (ani_ddd a), (ani_vo a) as [[] []]; reflexivity.
Qed.
Lemma unsized_unread fa sl t : de_any_asset (ser_any_asset (AaImage fa sl None None t)) = None.
Proof.
  destruct fa as [[id [nm mn]] u p e]. destruct sl as [sid]. unfold ser_any_asset, ser_file_asset, ser_asset, ser_visual_object, ser_slottable, de_any_asset.
  destruct nm, mn, u, e, sid, t; cbn [as_map]; match goal with |- context [has "layers" ?l] => change (has "layers" l) with false; change (has "w" l) with false; change (has "h" l) with false end; cbv iota; now destruct (req "t" _ _).
Qed.
(** A document that has been read is read again, the same, from what it is
    written to if and only if each of its image assets has a width or height;
    otherwise what it is written to is not read at all. *)
Theorem C48_exact : forall j a, json_ok j -> de_animation j = Some a ->
  (de_animation (ser_animation a) = Some a <-> images_sized a) /\ (~ images_sized a -> de_animation (ser_animation a) = None).
Proof.
  intros j a O H. assert (N : ~ images_sized a -> de_animation (ser_animation a) = None).
  { intros S. unfold images_sized in S. destruct (ani_assets a) as [l|] eqn:Ea; [|destruct S; exact I].
    destruct (assets_written a l Ea) as (fs & Ef & Em). rewrite Ef. clear Ef. unfold de_animation. cbn [as_map]. cbv iota beta.
    assert (X : opt "assets" (de_list de_any_asset) fs = None).
    { rewrite opt_member, Em. cbn [ser_list de_list]. destruct (mapO de_any_asset (map ser_any_asset l)) as [l'|] eqn:Mp; [|reflexivity]. exfalso. apply S.
      apply mapO_Forall2 in Mp. clear - Mp. revert l' Mp. induction l as [|x l IH]; intros l' Mp; [constructor|]. inversion Mp as [|? y ? ys Hx Hl]; subst. constructor; [|eapply IH; eauto].
      destruct x as [fa sl w h t|]; [|exact I]. destruct w; [left; discriminate|]. destruct h; [right; discriminate|]. rewrite unsized_unread in Hx. discriminate. }
    repeat match goal with |- match ?x with _ => _ end = None => first [rewrite X; reflexivity | destruct x; [|reflexivity]] end. }
  split; [|exact N]. split.
  - intros R. assert (D : images_sized a \/ ~ images_sized a).
    { unfold images_sized. destruct (ani_assets a) as [l|]; [|left; exact I].
      assert (Dx : forall x, image_sized x \/ ~ image_sized x).
      { intros [? ? [] [] ?|]; [left; left; discriminate|left; left; discriminate|left; right; discriminate|right; intros [E|E]; now apply E|left; exact I]. }
      clear - Dx. induction l as [|x l [IH|IH]]; [left; constructor| |right; intros F; inversion F; auto].
      destruct (Dx x) as [Q|Q]; [left; now constructor|right; intros F; inversion F; auto]. }
    destruct D as [D|D]; [exact D|]. rewrite (N D) in R. discriminate.
  - intros S. exact (C48_document_partial j a O H S).
Qed.
(** Both cases occur. *)
Example C48_exact_applies : (exists a, de_animation doc_sized = Some a /\ images_sized a) /\ exists j a, json_ok j /\ de_animation j = Some a /\ ~ images_sized a.
Proof.
  split; [destruct C48_witness as (_ & a & H & S & _); eauto|].
  destruct C48_refuted as (j & a & O & H & N). exists j, a. split; [exact O|]. split; [exact H|]. intros S.
  rewrite (C48_document_partial j a O H S) in N. discriminate.
Qed.
