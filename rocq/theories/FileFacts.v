(** Reading films (C100) whose numbers are written as integers. *)
From Coq Require Import ZArith Reals Bool List Arith String Ascii Lia Permutation.
From Flocq Require Import Core BinarySingleNaN.
From Verif Require Import F64 F64Facts Kurbo Value Animated Schema Import Serde SerdeSpec SerdeFacts Render RenderSpec.
From Verif Require Import PropPoster FilmSpec PropFilm.
From Verif Require Import PropSerde2 OrderSpec PropOrder JsonText TextSpec PropJsonText AlikeSpec.
Import ListNotations.
Local Open Scope string_scope.
Local Open Scope list_scope.

(** ** Reading numbers that are written as integers *)
Definition alikem (m m' : string * json) : Prop := fst m = fst m' /\ alike (snd m) (snd m').
Lemma alike_float x j : alike (JFloat x) j -> de_f64 j = Some x /\ (forall l, j <> JArr l) /\ (forall l, j <> JObj l) /\ j <> JNull.
Proof. inversion 1; subst; repeat split; try reflexivity; discriminate. Qed.
Lemma alike_int n j : alike (JInt n) j -> j = JInt n. Proof. inversion 1; auto. Qed.
Lemma alike_str n j : alike (JStr n) j -> j = JStr n. Proof. inversion 1; auto. Qed.
Lemma same_all l : Forall2 alike l l. Proof. induction l; constructor; auto. constructor. Qed.
Lemma same_members l : Forall2 alikem l l. Proof. induction l as [|[k v] l IH]; constructor; auto. split; auto. constructor. Qed.
Lemma alike_arr l j : alike (JArr l) j -> exists l', j = JArr l' /\ Forall2 alike l l'.
Proof. inversion 1; subst; eexists; split; eauto using same_all. Qed.
Lemma alike_obj l j : alike (JObj l) j -> exists l', j = JObj l' /\ Forall2 alikem l l'.
Proof. inversion 1; subst; eexists; split; eauto using same_members. Qed.
Ltac open :=
  repeat match goal with
  | H : alike (JObj _) _ |- _ => apply alike_obj in H as (? & -> & H)
  | H : alike (JArr _) _ |- _ => apply alike_arr in H as (? & -> & H)
  | H : alike (JInt _) _ |- _ => apply alike_int in H as ->
  | H : alike (JStr _) _ |- _ => apply alike_str in H as ->
  | H : Forall2 _ [] _ |- _ => inversion H; subst; clear H
  | H : Forall2 _ (_ :: _) _ |- _ => inversion H; subst; clear H
  | H : alikem (_, _) ?m |- _ => destruct m as [? ?]; destruct H as [H ?]; cbn [fst snd] in *; subst
  end.
Ltac numbers := repeat match goal with H : alike (JFloat _) _ |- _ => inversion H; subst; clear H end.
Lemma beat1_alike k j : alike (beat_json ns1 k) j -> de_keyframe j = Some (src_beat ns1 k).
Proof. destruct k as [t v [|] [ox oy] [ix iy]]; unfold beat_json, handle_json, ns1; cbn [bt_time bt_value bt_hold bt_out bt_in map fst snd]; intros A; open; numbers; reflexivity. Qed.
Lemma beat2_alike k j : alike (beat_json ns2 k) j -> de_keyframe j = Some (src_beat ns2 k).
Proof. destruct k as [t [v w] [|] [ox oy] [ix iy]]; unfold beat_json, handle_json, ns2; cbn [bt_time bt_value bt_hold bt_out bt_in map fst snd]; intros A; open; numbers; reflexivity. Qed.
Lemma beat_pos_alike k j : alike (beat_json ns2 k) j -> de_pos_keyframe j = Some (mkPosKeyframe (src_beat ns2 k) None None).
Proof. destruct k as [t [v w] [|] [ox oy] [ix iy]]; unfold beat_json, handle_json, ns2; cbn [bt_time bt_value bt_hold bt_out bt_in map fst snd]; intros A; open; numbers; reflexivity. Qed.
