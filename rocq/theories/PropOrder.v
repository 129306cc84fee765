(** C103: the order of members does not matter. *)
From Coq Require Import ZArith Reals Bool List Arith String Ascii Lia Permutation.
From Flocq Require Import Core BinarySingleNaN.
From Verif Require Import F64 Kurbo Value Animated Schema Import Serde SerdeSpec SerdeFacts SerdeFacts4 PropSerde PropSerde2 OrderSpec.
From Verif Require Import JsonText TextSpec PropJsonText.
From Verif Require OrderFacts.
Import ListNotations.
Local Open Scope string_scope.
Local Open Scope list_scope.
Local Open Scope nat_scope.

(** Whether a document is read, and to which composition, does not depend on
    the order of the members of its objects. *)
Theorem C103_order : forall E j j', shuffled j j' -> from_json E j = from_json E j'.
Proof.
  intros E j j' P. apply OrderFacts.animation_pad in P. unfold from_json.
  assert (C : forall a, conv_animation E a = conv_animation E (forget_meta a)) by reflexivity.
  destruct (de_animation j) as [a|], (de_animation j') as [a'|]; cbn in P; try discriminate; auto.
  rewrite (C a), (C a'). congruence.
Qed.
Theorem C103_layer : forall j j', shuffled j j' -> de_layer j = de_layer j'.
Proof. intros j j'. apply (proj1 OrderFacts.p_layer). Qed.
Theorem C103_shape : forall nested j j', shuffled j j' -> de_shape nested j = de_shape nested j'.
Proof. intros n j j'. apply (proj1 (OrderFacts.p_shape n)). Qed.

(** The same for texts. *)
Scheme shuffled_mind := Minimality for shuffled Sort Prop
  with shuffled_list_mind := Minimality for shuffled_list Sort Prop
  with shuffled_members_mind := Minimality for shuffled_members Sort Prop.
Lemma distinct_shuffled j j' : shuffled j j' -> distinct_names j -> distinct_names j'.
Proof.
  apply (shuffled_mind (fun j j' => distinct_names j -> distinct_names j') (fun l l' => Forall distinct_names l -> Forall distinct_names l')
    (fun fs fs' => Forall (fun m => distinct_names (snd m)) fs -> Forall (fun m => distinct_names (snd m)) fs')); auto.
  - intros l l' _ IH D. inversion D; subst. constructor. auto.
  - intros fs fs1 fs' N M IH P D. inversion D as [| | | | | |x F _]; subst. constructor.
    + eapply Permutation_Forall; eauto.
    + eapply Permutation_NoDup; [apply Permutation_map; exact P|]. now rewrite <- (OrderFacts.members_names _ _ M).
  - intros v v' l l' _ IH1 _ IH2 F. inversion F; subst. constructor; auto.
  - intros k v v' fs fs' _ IH1 _ IH2 F. inversion F; subst. constructor; auto.
Qed.
Theorem C103_text : forall E s s' j j', document exact_number 127 j s -> document exact_number 127 j' s' -> distinct_names j -> shuffled j j' ->
  from_str E s = from_str E s'.
Proof.
  intros E s s' j j' D D' N S. rewrite (C101_reads E s j D N), (C101_reads E s' j' D' (distinct_shuffled _ _ S N)). now apply C103_order.
Qed.

(** A document whose objects are written backwards at every depth is such a
    document. *)
Fixpoint backwards (j : json) : json :=
  match j with
  | JArr l => JArr (map backwards l)
  | JObj fs => JObj (rev (map (fun m => (fst m, backwards (snd m))) fs))
  | _ => j
  end.
Lemma backwards_shuffled j : distinct_names j -> shuffled j (backwards j).
Proof.
  induction j using json_ind'; intros D; cbn [backwards]; try constructor.
  - inversion D as [| | | | |x F|]; subst. clear D. induction H as [|v l V _ IH]; [constructor|]. inversion F; subst. constructor; auto.
  - inversion D as [| | | | | |x F N]; subst. clear D. apply shuf_obj with (fs1 := map (fun m => (fst m, backwards (snd m))) fs); auto using Permutation_rev.
    clear N. induction H as [|[k v] l V _ IH]; [constructor|]. inversion F; subst. constructor; auto.
Qed.
Theorem C103_backwards : forall E j, distinct_names j -> from_json E (backwards j) = from_json E j.
Proof. intros E j D. symmetry. now apply C103_order, backwards_shuffled. Qed.

(** Of two members of one name in a layer the last one counts, so their order
    does matter. *)
Definition twice_text (a b : string) : string :=
  ("{""fr"":60,""ip"":0,""op"":9,""w"":1,""h"":1,""layers"":[{""ty"":4,""ip"":0,""op"":" ++ a ++ ",""op"":" ++ b ++ ",""ks"":{""a"":{""k"":[0,0]},""p"":{""k"":[0,0]},""s"":{""k"":[100,100]},""r"":{""k"":0},""o"":{""k"":100}},""shapes"":[]}]}")%string.
Definition one_layer (l : list (string * json)) : json :=
  JObj [("fr", JInt 60); ("ip", JInt 0); ("op", JInt 9); ("w", JInt 1); ("h", JInt 1); ("layers", JArr [JObj ([("ty", JInt 4); ("ip", JInt 0)] ++ l ++
    [("ks", JObj [("a", JObj [("k", JArr [JInt 0; JInt 0])]); ("p", JObj [("k", JArr [JInt 0; JInt 0])]); ("s", JObj [("k", JArr [JInt 100; JInt 100])]);
       ("r", JObj [("k", JInt 0)]); ("o", JObj [("k", JInt 100)])]); ("shapes", JArr [])])])].
Lemma read_35 : read_text (twice_text "3" "5") = Some (one_layer [("op", JInt 3); ("op", JInt 5)]).
Proof. vm_compute. reflexivity. Qed.
Lemma read_53 : read_text (twice_text "5" "3") = Some (one_layer [("op", JInt 5); ("op", JInt 3)]).
Proof. vm_compute. reflexivity. Qed.
Theorem C103_refuted : forall E, exists c c', from_str E (twice_text "3" "5") = Some (Ok c) /\ from_str E (twice_text "5" "3") = Some (Ok c') /\
  map ly_out (co_layers c) = [f_of_Z 5] /\ map ly_out (co_layers c') = [f_of_Z 3].
Proof.
  assert (S : forall E b, exists c, from_json E (one_layer [("op", JInt b)]) = Some (Ok c) /\ map ly_out (co_layers c) = [f_of_Z b]).
  { intros E b. eexists. split; reflexivity. }
  assert (T : forall a b, settle (one_layer [("op", JInt a); ("op", JInt b)]) = settle (one_layer [("op", JInt b)])) by reflexivity.
  intros E. unfold from_str. rewrite read_35, read_53.
  change (duplicate (one_layer [("op", JInt 3); ("op", JInt 5)])) with false. change (duplicate (one_layer [("op", JInt 5); ("op", JInt 3)])) with false.
  cbv iota beta. rewrite !T.
  destruct (S E 5%Z) as (c & C & O). destruct (S E 3%Z) as (c' & C' & O'). exists c, c'.
  split; [exact C|]. split; [exact C'|]. auto.
Qed.
