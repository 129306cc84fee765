(** C19: trims that keep everything, by the numbers they are given. *)
From Coq Require Import ZArith Bool List Lia Reals Lra.
From Flocq Require Import Core BinarySingleNaN.
From Verif Require Import F64 F64Facts Kurbo Value Animated Batch Render RenderSpec BatchSpec BatchFacts2 PropBatch PropValue Examples.
Import ListNotations.
Close Scope string_scope.
Open Scope list_scope.
Open Scope R_scope.

(** A trim whose ends are at least [100 - 1e-9] percent apart, in either order
    and with any offset, changes nothing. *)
Theorem C19_wide : forall E tf alpha frame pre t post lo hi,
  (lo = tr_start (trim_eval E t frame) /\ hi = tr_end (trim_eval E t frame) \/ hi = tr_start (trim_eval E t frame) /\ lo = tr_end (trim_eval E t frame)) ->
  fin lo -> fin hi -> fin (fsub hi lo) -> B2R lo < B2R hi -> B2R (fsub f100 f_1em9) <= B2R (fsub hi lo) ->
  layer_paints E tf alpha frame (pre ++ ShTrim t :: post) = layer_paints E tf alpha frame (pre ++ post).
Proof.
  intros E tf alpha frame pre t post lo hi H Fl Fh Fd L W. apply trim_full. exists (f0, f1). split; [|vm_compute; reflexivity].
  assert (F1 : fin (fsub f100 f_1em9)) by reflexivity. assert (F9 : fin f_1em9) by reflexivity.
  assert (B : B2R f_1em9 <= B2R (fsub f100 f_1em9)) by (apply fleb_le; [reflexivity|reflexivity|vm_compute; reflexivity]).
  assert (R1 : fltb (fsub hi lo) f_1em9 = false) by (apply fltb_false; auto; lra).
  assert (R2 : fleb (fsub f100 f_1em9) (fsub hi lo) = true) by (apply fleb_le; auto).
  unfold trim_normalized. set (u := trim_eval E t frame) in *. destruct H as [[-> ->]|[-> ->]].
  - rewrite (proj2 (fleb_le _ _ Fl Fh) (Rlt_le _ _ L)). cbv zeta iota beta. now rewrite R1, R2.
  - destruct (fleb (tr_start u) (tr_end u)) eqn:Q; cbv zeta iota beta; [|now rewrite R1, R2].
    apply fleb_le in Q; auto. lra.
Qed.

(** A trim whose part to keep starts within [1e-9] of the beginning and ends
    within [1e-9] of the end changes nothing; both bounds included. *)
Theorem C19_nearly : forall E tf alpha frame pre t post s e,
  trim_normalized (trim_eval E t frame) = Some ((s, e), None) ->
  fin s -> fin e -> B2R s <= B2R f_1em9 -> B2R (fsub f1 f_1em9) <= B2R e ->
  layer_paints E tf alpha frame (pre ++ ShTrim t :: post) = layer_paints E tf alpha frame (pre ++ post).
Proof.
  intros E tf alpha frame pre t post s e N Fs Fe L H. apply trim_full. exists (s, e). split; [exact N|].
  unfold trim_is_full. cbn [fst snd].
  rewrite (proj2 (fleb_le s f_1em9 Fs eq_refl) L), (proj2 (fleb_le (fsub f1 f_1em9) e eq_refl Fe) H). reflexivity.
Qed.

(** Both apply: 5 to 105 percent turned by 30 degrees, and the same backwards;
    and a trim that keeps exactly from [1e-9] to the end. *)
Example C19_span_applies :
  fin (f_of_Z 5) /\ fin (f_of_Z 105) /\ fin (fsub (f_of_Z 105) (f_of_Z 5)) /\
  B2R (f_of_Z 5) < B2R (f_of_Z 105) /\ B2R (fsub f100 f_1em9) <= B2R (fsub (f_of_Z 105) (f_of_Z 5)) /\
  exists t s e, trim_normalized (trim_eval E0 t f0) = Some ((s, e), None) /\
    fin s /\ fin e /\ B2R s <= B2R f_1em9 /\ B2R (fsub f1 f_1em9) <= B2R e /\ fltb f0 s = true.
Proof.
  repeat split; try reflexivity.
  - apply fltb_lt; [reflexivity|reflexivity|vm_compute; reflexivity].
  - apply fleb_le; [reflexivity|reflexivity|vm_compute; reflexivity].
  - pose (t := TrFixed (mkTrim (fdiv f_1em9 (f_of_Z 10)) (fsub f100 (fmul f_1em9 (f_of_Z 10))) f0)).
    assert (Y : exists u, match trim_normalized (trim_eval E0 u f0) with
                | Some ((s, e), None) => is_finite s && is_finite e && fleb s f_1em9 && fleb (fsub f1 f_1em9) e && fltb f0 s
                | _ => false end = true) by (exists t; vm_compute; reflexivity).
    clear t. destruct Y as [u X].
    destruct (trim_normalized (trim_eval E0 u f0)) as [[[s e] [q|]]|] eqn:Q; try discriminate X.
    apply andb_prop in X as [X X5]. apply andb_prop in X as [X X4]. apply andb_prop in X as [X X3]. apply andb_prop in X as [X1 X2].
    exists u, s, e. split; [exact Q|]. split; [exact X1|]. split; [exact X2|].
    split; [apply (proj1 (fleb_le s f_1em9 X1 eq_refl) X3)|]. split; [|exact X5].
    apply (proj1 (fleb_le (fsub f1 f_1em9) e eq_refl X2) X4).
Qed.
