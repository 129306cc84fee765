(** C104: films (C100) from the text of their file to every frame. *)
From Coq Require Import ZArith Reals Bool List Arith String Ascii Lia Lra Permutation.
From Flocq Require Import Core BinarySingleNaN.
From Verif Require Import F64 F64Facts Kurbo Value Animated Schema Import Serde SerdeSpec SerdeFacts Render RenderSpec EasingSpec PropEasing.
From Verif Require Import Batch BatchSpec FrameSpec PropFrame PropDocument PropPoster FilmSpec PropFilm.
From Verif Require Import PropSerde2 OrderSpec PropOrder JsonText TextSpec TextFacts TextRead TextNum PropJsonText TextWrite PropWritten AlikeSpec FileFacts FileFacts2.
Import ListNotations.
Local Open Scope string_scope.
Local Open Scope list_scope.

(** The text [s] is a file of the film [f]: its JSON (C100), where numbers may
    be written as integers, members may be in any order, and there may be
    further members whose names mean nothing to velato. *)
Definition file_of (f : film) (s : string) : Prop :=
  exists j1 j2 j, alike (film_json f) j1 /\ shuffled j1 j2 /\ padded unknown_member j2 j /\ distinct_names j /\ document exact_number 127 j s.
Lemma file_read E f s : (0 <= fi_wide f <= usize_max)%Z -> (0 <= fi_high f <= usize_max)%Z -> file_of f s -> from_str E s = from_json E (film_json f).
Proof.
  intros Hw Hh (j1 & j2 & j & A & S & P & N & D). rewrite (C101_reads E s j D N), <- (C58_unknown_members E j2 j P), <- (C103_order E j1 j2 S).
  unfold from_json. now rewrite (film_alike f j1 Hw Hh A), (film_read f Hw Hh).
Qed.
(** From the text to what is drawn at every frame: the picture with the values
    of that moment. *)
Theorem C104_file : forall E f s, kurbo_paths E -> solves E -> good_film f -> (0 <= fi_wide f <= usize_max)%Z -> (0 <= fi_high f <= usize_max)%Z -> file_of f s ->
  exists c, from_str E s = Some (Ok c) /\
    forall frame view alpha r, fin frame -> used r ->
      exists p fuel r', film_now f frame p /\ render_to_vello_scene E fuel c frame view alpha r = (Ok (poster_scene E p frame view alpha), r').
Proof.
  intros E f s K So G Hw Hh F. destruct (C100_film E f K So G Hw Hh) as (c & C & H). exists c. split; [|exact H]. now rewrite (file_read E f s Hw Hh F).
Qed.
(** All files of a film are the same composition. *)
Theorem C104_same : forall E f s s', (0 <= fi_wide f <= usize_max)%Z -> (0 <= fi_high f <= usize_max)%Z -> file_of f s -> file_of f s' -> from_str E s = from_str E s'.
Proof. intros E f s s' Hw Hh F F'. now rewrite (file_read E f s Hw Hh F), (file_read E f s' Hw Hh F'). Qed.

(** ** Writing such a file *)
Lemma short_text show j : json_ok j -> (depth j <= 127)%nat -> (forall x, float_in x j -> shown_short show x) -> document exact_number 127 j (write_text show j).
Proof.
  intros O D F.
  pose (N := fun t j => written show t j /\ match j with JFloat x => shown_short show x | _ => True end).
  assert (W : forall j d, json_ok j -> (forall x, float_in x j -> shown_short show x) -> (depth j <= d)%nat -> text_of N d j (write_text show j)).
  { clear. intros j d O F D. assert (R : forall x, float_in x j -> exists y, read_number (show x) (JFloat y)).
    { intros x Hx. exists x. destruct (F x Hx) as (f & W & E & I & C & Sh). apply read_exact. exists f. split; [exact W|]. split; [exact E|]. right. eauto. }
    pose proof (write_is_text show j d O R D) as T. revert F. clear - T.
    revert d j T. assert (X : (forall d j t, text_of (written show) d j t -> (forall x, float_in x j -> shown_short show x) -> text_of N d j t) /\
       (forall d l t, texts_of (written show) d l t -> (forall j x, In j l -> float_in x j -> shown_short show x) -> texts_of N d l t) /\
       (forall d l t, members_of (written show) d l t -> (forall k j x, In (k, j) l -> float_in x j -> shown_short show x) -> members_of N d l t)).
    { apply (texts_mut (written show)); intros; try (constructor; auto; fail).
      - apply to_number. split; auto. destruct j; auto. match goal with H : forall x, _ |- _ => apply H end. constructor.
      - apply to_array. match goal with H : _ -> texts_of N _ _ _ |- _ => apply H end. intros j x I Fx. match goal with H : forall x, float_in x (JArr _) -> _ |- _ => apply H end. econstructor; eauto.
      - apply to_object. match goal with H : _ -> members_of N _ _ _ |- _ => apply H end. intros k j x I Fx. match goal with H : forall x, float_in x (JObj _) -> _ |- _ => apply H end. econstructor; eauto.
      - constructor; auto. match goal with H : _ -> text_of N _ _ _ |- _ => apply H end. intros x Fx. match goal with H : forall j x, In j _ -> _ |- _ => apply (H j); auto end. now left.
      - constructor; auto. + match goal with H : _ -> text_of N _ _ _ |- _ => apply H end. intros x Fx. match goal with H : forall j x, In j _ -> _ |- _ => apply (H j); auto end. now left.
        + match goal with H : _ -> texts_of N _ _ _ |- _ => apply H end. intros j' x I Fx. match goal with H : forall j x, In j _ -> _ |- _ => apply (H j'); auto end. now right.
      - constructor; auto. match goal with H : _ -> text_of N _ _ _ |- _ => apply H end. intros x Fx. match goal with H : forall k j x, In (k, j) _ -> _ |- _ => apply (H k j); auto end. now left.
      - constructor; auto. + match goal with H : _ -> text_of N _ _ _ |- _ => apply H end. intros x Fx. match goal with H : forall k j x, In (k, j) _ -> _ |- _ => apply (H k j); auto end. now left.
        + match goal with H : _ -> members_of N _ _ _ |- _ => apply H end. intros k' j' x I Fx. match goal with H : forall k j x, In (k, j) _ -> _ |- _ => apply (H k' j'); auto end. now right. }
    intros d j T. now apply X. }
  assert (D' : document N 127 j (write_text show j)).
  { exists "", (write_text show j), "". split; [constructor|]. split; [now apply W|]. split; [constructor|now rewrite sapp_nil]. }
  revert D'. apply document_mono. intros t [] [Wt St]; cbn in Wt; try contradiction.
  - destruct Wt as [B ->]. now apply write_int_ok.
  - destruct Wt as [-> _]. destruct St as (f & W1 & E & I & C & Sh). exists f. split; [exact W1|]. split; [exact E|]. right. eauto.
Qed.

(** ** The film of PropFilm.v, as a text *)
Definition film1_integers : json :=
  JObj [("fr", JInt 30); ("ip", JInt 0); ("op", JInt 60); ("w", JInt 200); ("h", JInt 200); ("layers", JArr [JObj [("ty", JInt 4); ("ip", JInt 0);
   ("op", JInt 60); ("ks", JObj [("a", JObj [("k", JArr [JInt 0; JInt 0])]); ("p", JObj [("k", JArr [JInt 100; JInt 100])]);
   ("s", JObj [("k", JArr [JInt 100; JInt 100])]); ("r", JObj [("k", JArr [JObj [("t", JInt 0); ("s", JArr [JInt 0]); ("h", JInt 0);
   ("o", JObj [("x", JFloat (flit 1 2)); ("y", JInt 0)]); ("i", JObj [("x", JFloat (flit 1 2)); ("y", JInt 1)])]; JObj [("t", JInt 30);
   ("s", JArr [JInt 90]); ("h", JInt 1); ("o", JObj [("x", JFloat (flit 1 2)); ("y", JInt 0)]); ("i", JObj [("x", JFloat (flit 1 2));
   ("y", JInt 1)])]])]); ("o", JObj [("k", JInt 100)])]); ("shapes", JArr [JObj [("ty", JStr "gr"); ("it", JArr [JObj [("ty", JStr "el");
   ("p", JObj [("k", JArr [JObj [("t", JInt 0); ("s", JArr [JInt 0; JInt 0]); ("h", JInt 0); ("o", JObj [("x", JFloat (flit 1 2)); ("y", JInt 0)]);
   ("i", JObj [("x", JFloat (flit 1 2)); ("y", JInt 1)])]; JObj [("t", JInt 30); ("s", JArr [JInt 100; JInt 0]); ("h", JInt 0);
   ("o", JObj [("x", JFloat (flit 1 2)); ("y", JInt 0)]); ("i", JObj [("x", JFloat (flit 1 2)); ("y", JInt 1)])]])]); ("s", JObj [("k", JArr [JInt 20;
   JInt 20])])]; JObj [("ty", JStr "fl"); ("c", JObj [("k", JArr [JInt 1; JInt 0; JInt 0])]); ("o", JObj [("k", JArr [JObj [("t", JInt 0);
   ("s", JArr [JInt 100]); ("h", JInt 0); ("o", JObj [("x", JFloat (flit 1 2)); ("y", JInt 0)]); ("i", JObj [("x", JFloat (flit 1 2)); ("y", JInt 1)])];
   JObj [("t", JInt 60); ("s", JArr [JInt 0]); ("h", JInt 0); ("o", JObj [("x", JFloat (flit 1 2)); ("y", JInt 0)]); ("i", JObj [("x", JFloat (flit 1 2));
   ("y", JInt 1)])]])])]; JObj [("ty", JStr "tr"); ("a", JObj [("k", JArr [JInt 0; JInt 0])]); ("p", JObj [("k", JArr [JInt 0; JInt 0])]);
   ("s", JObj [("k", JArr [JInt 100; JInt 100])]); ("r", JObj [("k", JInt 0)]); ("o", JObj [("k", JInt 100)])]])]; JObj [("ty", JStr "gr");
   ("it", JArr [JObj [("ty", JStr "rc"); ("p", JObj [("k", JArr [JInt 0; JInt 0])]); ("s", JObj [("k", JArr [JObj [("t", JInt 10); ("s", JArr [JInt 10;
   JInt 10]); ("h", JInt 0); ("o", JObj [("x", JFloat (flit 1 2)); ("y", JInt 0)]); ("i", JObj [("x", JFloat (flit 1 2)); ("y", JInt 1)])];
   JObj [("t", JInt 20); ("s", JArr [JInt 40; JInt 30]); ("h", JInt 1); ("o", JObj [("x", JFloat (flit 1 2)); ("y", JInt 0)]);
   ("i", JObj [("x", JFloat (flit 1 2)); ("y", JInt 1)])]; JObj [("t", JInt 50); ("s", JArr [JInt 100; JInt 100]); ("h", JInt 0);
   ("o", JObj [("x", JFloat (flit 1 2)); ("y", JInt 0)]); ("i", JObj [("x", JFloat (flit 1 2)); ("y", JInt 1)])]])]); ("r", JObj [("k", JInt 0)])];
   JObj [("ty", JStr "fl"); ("c", JObj [("k", JArr [JInt 0; JInt 1; JInt 0])]); ("o", JObj [("k", JInt 100)])]; JObj [("ty", JStr "tr");
   ("a", JObj [("k", JArr [JInt 0; JInt 0])]); ("p", JObj [("k", JArr [JInt 0; JInt 0])]); ("s", JObj [("k", JArr [JInt 100; JInt 100])]);
   ("r", JObj [("k", JInt 0)]); ("o", JObj [("k", JInt 100)])]])]])]])].
Definition film1_text : string :=
  ("{""generator"":""example"",""layers"":[{""shapes"":[{""it"":[{""s"":{""k"":[20,20]},""p"":{""k"":[{""i"":{""y"":1,""x"":0.5},""o"":{""y"":0,""x"":0.5}" ++
   ",""h"":0,""s"":[0,0],""t"":0},{""i"":{""y"":1,""x"":0.5},""o"":{""y"":0,""x"":0.5},""h"":0,""s"":[100,0],""t"":30}]},""ty"":""el""},{""o"":{""k"":[{""i"":" ++
   "{""y"":1,""x"":0.5},""o"":{""y"":0,""x"":0.5},""h"":0,""s"":[100],""t"":0},{""i"":{""y"":1,""x"":0.5},""o"":{""y"":0,""x"":0.5},""h"":0,""s"":[0],""t"":60" ++
   "}]},""c"":{""k"":[1,0,0]},""ty"":""fl""},{""o"":{""k"":100},""r"":{""k"":0},""s"":{""k"":[100,100]},""p"":{""k"":[0,0]},""a"":{""k"":[0,0]},""ty"":""tr" ++
   """}],""ty"":""gr""},{""it"":[{""r"":{""k"":0},""s"":{""k"":[{""i"":{""y"":1,""x"":0.5},""o"":{""y"":0,""x"":0.5},""h"":0,""s"":[10,10],""t"":10},{""i"":{""y" ++
   """:1,""x"":0.5},""o"":{""y"":0,""x"":0.5},""h"":1,""s"":[40,30],""t"":20},{""i"":{""y"":1,""x"":0.5},""o"":{""y"":0,""x"":0.5},""h"":0,""s"":[100,100]," ++
   """t"":50}]},""p"":{""k"":[0,0]},""ty"":""rc""},{""o"":{""k"":100},""c"":{""k"":[0,1,0]},""ty"":""fl""},{""o"":{""k"":100},""r"":{""k"":0},""s"":{""k"":[10" ++
   "0,100]},""p"":{""k"":[0,0]},""a"":{""k"":[0,0]},""ty"":""tr""}],""ty"":""gr""}],""ks"":{""o"":{""k"":100},""r"":{""k"":[{""i"":{""y"":1,""x"":0.5},""o"":{" ++
   """y"":0,""x"":0.5},""h"":0,""s"":[0],""t"":0},{""i"":{""y"":1,""x"":0.5},""o"":{""y"":0,""x"":0.5},""h"":1,""s"":[90],""t"":30}]},""s"":{""k"":[100,100]" ++
   "},""p"":{""k"":[100,100]},""a"":{""k"":[0,0]}},""op"":60,""ip"":0,""ty"":4}],""h"":200,""w"":200,""op"":60,""ip"":0,""fr"":30}")%string.
Lemma half_text : shown_short (fun _ => "0.5"%string) (flit 1 2).
Proof.
  exists (mkFT false ["0"%char] (Some ["5"%char]) None). split; [|split; [reflexivity|split; [intros (H & _); discriminate|split]]].
  - split; [apply (digits_are "0"); reflexivity|]. split; [left; reflexivity|]. split; [split; [apply (digits_are "5"); reflexivity|discriminate]|exact I].
  - split; [reflexivity|]. split; [|reflexivity]. replace (figure_value _) with (B2R (flit 1 2)); [symmetry; apply rnd_f64|]. change (flit 1 2) with f_half. rewrite half_R0. unfold figure_value. cbn [ft_minus].
    change (figure_digits _) with 5%Z. change (ten_exp _) with (-1)%Z. rewrite power_ten. cbn [Z.leb Z.compare Z.opp]. change (10 ^ 1)%Z with 10%Z. lra.
  - split; [|split]; vm_compute; (reflexivity || discriminate).
Qed.
(** All numbers but 1/2 are written as integers. *)
Lemma film1_alike : alike (film_json film1) film1_integers.
Proof.
  unfold film1_integers, film_json, film1. cbn [fi_in fi_out fi_rate fi_wide fi_high fi_acts map].
  repeat first [apply al_same | apply al_number | apply (al_number 0) | apply al_arr | apply al_obj | constructor | (split; [reflexivity|cbn [fst snd]])].
Qed.
Fixpoint floats (j : json) : list f64 :=
  match j with JFloat x => [x] | JArr l => flat_map floats l | JObj fs => flat_map (fun m => floats (snd m)) fs | _ => [] end.
Lemma float_in_floats x j : float_in x j -> In x (floats j).
Proof. induction 1; cbn [floats]; [now left|apply in_flat_map; eauto|apply in_flat_map; exists (k, j); auto]. Qed.
Definition film1_file : json := match backwards film1_integers with JObj fs => JObj (("generator", JStr "example") :: fs) | j => j end.
Lemma film1_ints_ok : json_ok film1_integers.
Proof.
  unfold film1_integers. repeat first [apply ok_arr | apply ok_obj | apply ok_str | (apply ok_int; lia) | (apply ok_float; reflexivity) | apply Forall_nil | apply Forall_cons | apply NoDup_nil |
    (apply NoDup_cons; [cbn [map fst In]; intuition discriminate|]) | progress cbn [map fst snd]].
Qed.
Lemma film1_file_ok : json_ok film1_file.
Proof.
  cbv [film1_file backwards film1_integers map rev app fst snd]. repeat first [apply ok_arr | apply ok_obj | apply ok_str | (apply ok_int; lia) | (apply ok_float; reflexivity) | apply Forall_nil | apply Forall_cons | apply NoDup_nil |
    (apply NoDup_cons; [cbn [map fst In]; intuition discriminate|]) | progress cbn [map fst snd]].
Qed.
Example C104_applies : good_film film1 /\ file_of film1 film1_text.
Proof.
  split; [exact film1_ok|]. exists film1_integers, (backwards film1_integers), film1_file. split; [exact film1_alike|].
  split; [apply backwards_shuffled, ok_distinct, film1_ints_ok|]. split; [|split; [apply ok_distinct, film1_file_ok|]].
  - unfold film1_file, film1_integers. cbn [backwards]. match goal with |- padded _ (JObj ?l) _ => set (fs := l) end.
    constructor; [apply unit_variantb_ok; reflexivity|apply unit_variantb_ok; reflexivity|]. apply padm_add; [unfold unknown_member; rewrite <- SerdeFacts4.existsb_In; discriminate|].
    clearbody fs. induction fs as [|[k v] fs IH]; constructor; [constructor|exact IH].
  - replace film1_text with (write_text (fun _ => "0.5"%string) film1_file) by (vm_compute; reflexivity). apply short_text; [exact film1_file_ok|vm_compute; lia|].
    intros x F. apply float_in_floats in F. assert (A : Forall (fun y => y = flit 1 2) (floats film1_file)) by (cbv - [flit]; repeat constructor).
    rewrite Forall_forall in A. rewrite (A x F). exact half_text.
Qed.
