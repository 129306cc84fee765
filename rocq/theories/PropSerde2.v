(** Members of a JSON document that make no difference: C58, C59 *)
From Coq Require Import ZArith Bool List Arith String Lia.
From Flocq Require Import Core BinarySingleNaN.
From Verif Require Import F64 Kurbo Value Animated Schema Import Serde SerdeSpec SerdeFacts SerdeFacts4 PropSerde.
Import ListNotations.
Local Open Scope string_scope.
Local Open Scope list_scope.
Local Open Scope nat_scope.

Lemma padded_from_json E j j' : padded harmless_member j j' -> from_json E j = from_json E j'.
Proof.
  intros P. apply animation_pad in P. unfold from_json.
  assert (C : forall a, conv_animation E a = conv_animation E (forget_meta a)) by reflexivity.
  destruct (de_animation j) as [a|], (de_animation j') as [a'|]; cbn in P; try discriminate; auto.
  rewrite (C a), (C a'). congruence.
Qed.

(** * C58: unknown members *)

(** Whether a document is read, and to which composition, does not depend on
    members with unknown names, wherever they are. *)
Theorem C58_unknown_members : forall E j j', padded unknown_member j j' -> from_json E j = from_json E j'.
Proof. intros E j j' P. apply padded_from_json. eapply padded_weaken; [|exact P]. unfold harmless_member. auto. Qed.
(** single layers and shapes *)
Theorem C58_layer : forall j j', padded unknown_member j j' -> de_layer j = de_layer j'.
Proof. intros j j' P. apply (proj1 p_layer). eapply padded_weaken; [|exact P]. unfold harmless_member. auto. Qed.
Theorem C58_shape : forall nested j j', padded unknown_member j j' -> de_shape nested j = de_shape nested j'.
Proof. intros n j j' P. apply (proj1 (p_shape n)). eapply padded_weaken; [|exact P]. unfold harmless_member. auto. Qed.
(** Any members with unknown names may be removed: [known_part] keeps the known ones *)
Fixpoint known_part (j : json) : json :=
  match j with
  | JArr l => JArr (map known_part l)
  | JObj fs => JObj ((fix go fs := match fs with
                       | [] => []
                       | (k, v) :: r => if knownb k then (k, known_part v) :: go r else go r
                       end) fs)
  | _ => j
  end.
Inductive no_unit_variant : json -> Prop :=
| nuv_null : no_unit_variant JNull
| nuv_bool b : no_unit_variant (JBool b)
| nuv_int n : no_unit_variant (JInt n)
| nuv_float x : no_unit_variant (JFloat x)
| nuv_str s : no_unit_variant (JStr s)
| nuv_arr l : Forall no_unit_variant l -> no_unit_variant (JArr l)
| nuv_obj fs : ~ unit_variant fs -> Forall (fun m => no_unit_variant (snd m)) fs -> no_unit_variant (JObj fs).
Theorem C58_known_part : forall E j, no_unit_variant j -> no_unit_variant (known_part j) ->
  from_json E (known_part j) = from_json E j.
Proof.
  intros E j N N'. apply C58_unknown_members. revert N N'. induction j using json_ind'; intros N N'; try (constructor; fail).
  - cbn [known_part] in *. constructor. inversion N as [| | | | |? Nl|]; subst. inversion N' as [| | | | |? Nl'|]; subst. clear N N'.
    induction H as [|x r Hx _ IH]; cbn; constructor; inversion Nl; inversion Nl'; subst; auto.
  - cbn [known_part] in *. inversion N as [| | | | | |? U Nf]; subst. inversion N' as [| | | | | |? U' Nf']; subst.
    constructor; auto. clear N N' U U'. induction H as [|[k v] r Hx _ IH]; [constructor|]. inversion Nf; subst. cbn [snd] in *.
    destruct (knownb k) eqn:K.
    + inversion Nf'; subst. constructor; [apply Hx; auto|apply IH; auto].
    + constructor; auto. unfold unknown_member. intros I. apply existsb_In in I. unfold knownb in K. congruence.
Qed.

(** the example document of PropSerde.v, padded *)
Definition noise : list (string * json) := [("vendor", JObj [("deep", JArr [JNull])]); ("", JNull)].
Fixpoint noisy (j : json) : json :=
  match j with
  | JArr l => JArr (map noisy l)
  | JObj fs => JObj (noise ++ map (fun m => (fst m, noisy (snd m))) fs)
  | _ => j
  end.
Definition unit_variantb (fs : list (string * json)) : bool :=
  match fs with
  | [(k, JNull)] | [(k, JObj [])] => existsb (String.eqb k) (map fst mask_names ++ map fst dash_names)
  | _ => false
  end.
Lemma unit_variantb_ok fs : unit_variantb fs = false -> ~ unit_variant fs.
Proof.
  intros B (k & v & -> & I & [-> | ->]); cbn [unit_variantb] in B; rewrite <- in_app_iff in I; apply existsb_In in I; congruence.
Qed.
Fixpoint no_unit_variantb (j : json) : bool :=
  match j with
  | JArr l => forallb no_unit_variantb l
  | JObj fs => negb (unit_variantb fs) && forallb (fun m => no_unit_variantb (snd m)) fs
  | _ => true
  end.
Lemma no_unit_variantb_ok j : no_unit_variantb j = true -> no_unit_variant j.
Proof.
  induction j using json_ind'; cbn [no_unit_variantb]; intros B; try (constructor; fail).
  - constructor. rewrite forallb_forall in B. rewrite Forall_forall in *. auto.
  - apply andb_prop in B. destruct B as [B1 B2]. apply negb_true_iff in B1. constructor; [now apply unit_variantb_ok|].
    rewrite forallb_forall in B2. rewrite Forall_forall in *. auto.
Qed.
Lemma noisy_padded j : no_unit_variant j -> padded unknown_member j (noisy j).
Proof.
  induction j using json_ind'; intros N; try (constructor; fail).
  - cbn [noisy]. constructor. inversion N as [| | | | |? Nl|]; subst. clear N. induction H; cbn; constructor; inversion Nl; subst; auto.
  - cbn [noisy]. inversion N as [| | | | | |? U Nf]; subst. constructor; auto.
    { intros (k & v & E & _). destruct fs; discriminate. }
    unfold noise. cbn [app].
    apply padm_add; [unfold unknown_member; rewrite <- existsb_In; discriminate|].
    apply padm_add; [unfold unknown_member; rewrite <- existsb_In; discriminate|].
    clear N U. induction H as [|[k v] r Hx _ IH]; cbn; constructor; inversion Nf; subst; auto.
Qed.
Example C58_witness : padded unknown_member doc_sized (noisy doc_sized) /\ doc_sized <> noisy doc_sized /\
  exists a, de_animation (noisy doc_sized) = Some a /\ List.length (ani_layers a) = 4.
Proof.
  split; [apply noisy_padded, no_unit_variantb_ok; vm_compute; reflexivity|]. split; [intros X; apply (f_equal (fun j => match j with JObj fs => List.length fs | _ => 0 end)) in X; vm_compute in X; discriminate X|].
  assert (T : match de_animation (noisy doc_sized) with Some a => Nat.eqb (List.length (ani_layers a)) 4 | None => false end = true)
    by (vm_compute; reflexivity).
  destruct (de_animation (noisy doc_sized)) as [a|]; [|discriminate]. exists a. split; auto. now apply Nat.eqb_eq.
Qed.

(** * C59: null members *)

(** Writing [null] for a member that is left out makes no difference, unless
    its name is "layers", "w", "h" or "t". *)
Theorem C59_null_partial : forall E j j', padded null_member j j' -> from_json E j = from_json E j'.
Proof. intros E j j' P. apply padded_from_json. eapply padded_weaken; [|exact P]. unfold harmless_member. auto. Qed.
Definition add_null (k : string) (j : json) : json := match j with JObj fs => JObj ((k, JNull) :: fs) | _ => j end.
Example C59_witness : padded null_member doc_sized (add_null "ver" doc_sized) /\ exists a, de_animation doc_sized = Some a.
Proof.
  split; [|destruct C48_witness as (_ & a & H & _); eauto].
  unfold doc_sized, jdoc. cbn [add_null]. constructor; try (intros (k & v & E & _); discriminate).
  apply padm_add; [split; [reflexivity|split; [rewrite <- existsb_In; vm_compute; discriminate|vm_compute; reflexivity]]|].
  repeat (apply padm_keep; [constructor|]). constructor.
Qed.
(** An asset without width and height is rejected; with a [null] width it is
    taken for an image.  A [null] "t" is an error in an image. *)
Definition doc_with (image : list (string * json)) : json :=
  JObj [("fr", num 60); ("ip", num 0); ("op", num 60); ("w", num 5); ("h", num 5); ("layers", JArr []);
        ("assets", JArr [JObj (("id", JStr "img") :: ("p", JStr "img.png") :: image)])].
Theorem C59_refuted : forall E,
  (from_json E (doc_with []) = None /\ from_json E (doc_with [("w", JNull)]) <> None) /\
  (from_json E (doc_with [("w", num 5)]) <> None /\ from_json E (doc_with [("w", num 5); ("t", JNull)]) = None).
Proof. intros E. split; split; vm_compute; try reflexivity; discriminate. Qed.
