(** C101: JSON text is read as what it stands for. *)
From Coq Require Import ZArith Reals Bool List String Ascii Lia Lra.
From Flocq Require Import Core BinarySingleNaN.
From Verif Require Import F64 Kurbo F64Facts Value Animated Schema Import Serde SerdeFacts JsonText TextSpec TextFacts TextRead TextNum TrimFacts.
Import ListNotations.
Local Open Scope string_scope.

Lemma texts_mono (N N' : string -> json -> Prop) : (forall t j, N t j -> N' t j) ->
  (forall d j t, text_of N d j t -> text_of N' d j t) /\ (forall d l t, texts_of N d l t -> texts_of N' d l t) /\ (forall d l t, members_of N d l t -> members_of N' d l t).
Proof.
  intros H. apply (texts_mut N (fun d j t _ => text_of N' d j t) (fun d l t _ => texts_of N' d l t) (fun d l t _ => members_of N' d l t)); intros; solve [constructor; solve [auto]].
Qed.
Lemma document_mono (N N' : string -> json -> Prop) d j s : (forall t j, N t j -> N' t j) -> document N d j s -> document N' d j s.
Proof. intros H (w1 & t & w2 & B1 & T & B2 & ->). exists w1, t, w2. repeat split; auto. now apply (texts_mono N N' H). Qed.
Lemma texts_some (N N' : string -> json -> Prop) : (forall t j, N t j -> exists j', N' t j') ->
  (forall d j t, text_of N d j t -> exists j', text_of N' d j' t) /\ (forall d l t, texts_of N d l t -> exists l', texts_of N' d l' t) /\
  (forall d l t, members_of N d l t -> exists l', members_of N' d l' t).
Proof.
  intros H. apply (texts_mut N (fun d j t _ => exists j', text_of N' d j' t) (fun d l t _ => exists l', texts_of N' d l' t) (fun d l t _ => exists l', members_of N' d l' t)); intros;
    repeat match goal with X : exists _, _ |- _ => destruct X as [? X] end; try solve [eexists; constructor; solve [eauto]].
  destruct (H _ _ n) as (j' & Hj). exists j'. now constructor.
Qed.
Lemma nodup_filter fs k : NoDup (map fst fs) -> (List.length (filter (fun m : string * json => String.eqb (fst m) k) fs) <= 1)%nat.
Proof.
  induction fs as [|m fs IH]; [cbn; lia|]. cbn [map filter]. intros D. inversion D; subst. destruct (String.eqb_spec (fst m) k); [|auto]. cbn [List.length].
  replace (filter _ fs) with (@nil (string * json)); [cbn; lia|]. symmetry. destruct (filter _ fs) as [|m' r] eqn:E; [reflexivity|].
  assert (I : In m' (filter (fun m => String.eqb (fst m) k) fs)) by (rewrite E; now left). apply filter_In in I as [I Q]. apply String.eqb_eq in Q. exfalso. apply H1. subst k. rewrite <- Q. now apply in_map.
Qed.
Lemma twice_nodup keys fs : NoDup (map fst fs) -> twice keys fs = false.
Proof.
  intros D. unfold twice. induction keys as [|k r IH]; [reflexivity|]. cbn [existsb]. rewrite IH, orb_false_r. apply Nat.ltb_ge. now apply nodup_filter.
Qed.
Lemma put_all fs : forall acc, NoDup (map fst (acc ++ fs)%list) -> fold_left put fs acc = (acc ++ fs)%list.
Proof.
  induction fs as [|m fs IH]; intros acc D; [now rewrite app_nil_r|]. cbn [fold_left]. assert (P : put acc m = (acc ++ [m])%list).
  { unfold put. f_equal. rewrite map_app in D. cbn [map] in D. apply NoDup_remove_2 in D. induction acc as [|a acc IHa]; [reflexivity|]. cbn [filter].
    destruct (String.eqb_spec (fst a) (fst m)) as [Q|Q]; [exfalso; apply D; cbn; left; exact Q|]. cbn [negb]. f_equal. apply IHa. intros I. apply D. cbn. now right. }
  rewrite P, IH; rewrite <- app_assoc; [reflexivity|exact D].
Qed.
Lemma settle_same : forall j, distinct_names j -> settle j = j.
Proof.
  induction j using json_ind'; intros D; try reflexivity; inversion D; subst; cbn [settle].
  - f_equal. rewrite Forall_forall in *. rewrite <- (map_id l) at 2. apply map_ext_in. auto.
  - f_equal. assert (M : map (fun m => (fst m, settle (snd m))) fs = fs).
    { rewrite <- (map_id fs) at 2. apply map_ext_in. intros [k v] I. cbn [fst snd]. f_equal. rewrite Forall_forall in *. apply (H (k, v) I). apply (H1 (k, v) I). }
    rewrite M. unfold last_ones. now rewrite put_all.
Qed.
Lemma no_duplicate j : distinct_names j -> duplicate j = false.
Proof.
  assert (T : forall keys j, distinct_names j -> twice_in keys j = false) by (intros keys j0 D; destruct j0; try reflexivity; inversion D; now apply twice_nodup).
  intros D. destruct j; try reflexivity. inversion D as [| | | | | |fs F N]; subst. cbn [duplicate]. rewrite twice_nodup by exact N. cbn [orb].
  apply not_true_is_false. intros E. apply existsb_exists in E as (m & I & E). rewrite Forall_forall in F. specialize (F m I). apply orb_prop in E as [E|E]; apply andb_prop in E as [_ E].
  - destruct (snd m) as [| | | | |l|]; try discriminate. inversion F; subst. rewrite Forall_forall in *. apply existsb_exists in E as (x & Ix & E). rewrite T in E by auto. discriminate.
  - rewrite T in E by exact F. discriminate.
Qed.

(** Text that stands for a value is read as this value: with any white space,
    any way to write the strings, members in any order, 127 levels. *)
Theorem C101_reads : forall E s j, document exact_number 127 j s -> distinct_names j -> from_str E s = from_json E j.
Proof.
  intros E s j D N. unfold from_str. rewrite (proj2 (read_text_iff s j)) by (revert D; apply document_mono, read_exact). now rewrite no_duplicate, settle_same.
Qed.
(** Whatever numbers of up to 19 digits there are, the text is read, and each
    number to within a few units of the last of 53 binary places. *)
Theorem C101_accepts : forall E s j, document usual_text 127 j s ->
  exists j', document fair_number 127 j' s /\ (distinct_names j' -> from_str E s = from_json E j').
Proof.
  intros E s j (w1 & t & w2 & B1 & T & B2 & ->). apply (proj1 (texts_some usual_text read_number usual_reads)) in T as (j' & T). exists j'.
  assert (D : document read_number 127 j' (w1 ++ t ++ w2)) by (exists w1, t, w2; auto).
  split; [revert D; apply document_mono, read_fair|]. intros N. unfold from_str. rewrite (proj2 (read_text_iff _ j') D). now rewrite no_duplicate, settle_same.
Qed.
(** No other text is accepted. *)
Theorem C101_only : forall E s c, from_str E s = Some c ->
  exists j, document fair_number 127 j s /\ (distinct_names j -> from_json E j = Some c).
Proof.
  intros E s c. unfold from_str. destruct (read_text s) as [j|] eqn:R; [|discriminate]. apply read_text_iff in R. intros H. exists j.
  split; [revert R; apply document_mono, read_fair|]. intros N. now rewrite no_duplicate, settle_same in H.
Qed.
(** A text stands for one value. *)
Theorem C101_one : forall s j j', document exact_number 127 j s -> document exact_number 127 j' s -> j = j'.
Proof.
  intros s j j' D D'. assert (R : read_text s = Some j) by (apply read_text_iff; revert D; apply document_mono, read_exact).
  assert (R' : read_text s = Some j') by (apply read_text_iff; revert D'; apply document_mono, read_exact). congruence.
Qed.
(** A member of the document that is there twice is an error. *)
Theorem C101_twice : forall E s l1 l2 l3 k x y, document exact_number 127 (JObj (l1 ++ (k, x) :: l2 ++ (k, y) :: l3)%list) s ->
  In k ["nm"; "mn"; "layers"; "v"; "ver"; "fr"; "ip"; "op"; "w"; "h"; "ddd"; "assets"; "markers"; "meta"; "metadata"]%list -> from_str E s = None.
Proof.
  intros E s l1 l2 l3 k x y D K. unfold from_str. rewrite (proj2 (read_text_iff s _) (document_mono _ _ _ _ _ read_exact D)). cbn [duplicate].
  replace (twice document_keys _) with true; [reflexivity|]. symmetry. unfold twice. apply existsb_exists. exists k. split; [exact K|]. apply Nat.ltb_lt.
  rewrite !filter_app. cbn [filter fst]. rewrite String.eqb_refl, filter_app. cbn [filter fst]. rewrite String.eqb_refl. rewrite !app_length. cbn [List.length]. rewrite app_length. cbn [List.length]. lia.
Qed.
(** In a layer, an asset or the metadata the last one counts. *)
Lemma put_lookup {A} (f : json -> option A) fs m k : req k f (put fs m) = if String.eqb k (fst m) then f (snd m) else req k f fs.
Proof.
  unfold put. destruct m as [k' v]. cbn [fst snd]. induction fs as [|[a b] fs IH]; cbn [filter app].
  - cbn. destruct (String.eqb k k'); reflexivity.
  - cbn [fst]. destruct (String.eqb_spec a k').
    + cbn [negb]. rewrite IH. subst a. cbn [req]. destruct (String.eqb_spec k k'); reflexivity.
    + cbn [negb app req]. destruct (String.eqb_spec k a).
      * subst a. destruct (String.eqb_spec k k'); [contradiction|reflexivity].
      * exact IH.
Qed.

(** ** A number that is not read as the closest double *)
Definition near_one : figure_text := mkFT false ["0"%char] (Some (list_ascii_of_string "9728340843400927")) None.
Theorem C101_neighbour : well_formed near_one /\ figure_string near_one = "0.9728340843400927" /\
  exists x y, closest false (figure_value near_one) x /\ read_text "0.9728340843400927" = Some (JFloat y) /\ B2R y <> B2R x.
Proof.
  assert (W : well_formed near_one).
  { repeat split; try discriminate; [repeat constructor; unfold digit, code; cbn; lia|left; reflexivity|].
    cbn [ft_part near_one list_ascii_of_string]. repeat (constructor; [unfold digit, code; cbn; lia|]). constructor. }
  split; [exact W|]. split; [reflexivity|]. exists (fnorm 8762510439454718 (-53)), (fdiv (f_of_Z 9728340843400927) (pow10 16)).
  destruct (fnorm_R 8762510439454718 (-53) ltac:(lia) ltac:(lia)) as [R1 F1]. destruct (fnorm_R 8762510439454719 (-53) ltac:(lia) ltac:(lia)) as [R2 F2].
  split; [|split].
  - split; [exact F1|]. split; [|vm_compute; reflexivity]. rewrite R1.
    assert (V : figure_value near_one = (9728340843400927 / 10000000000000000)%R).
    { unfold figure_value. change (figure_digits near_one) with 9728340843400927%Z. change (ten_exp near_one) with (-16)%Z. cbn [ft_minus near_one]. rewrite power_ten. cbn [Z.leb Z.compare Z.opp].
      change (10 ^ 16)%Z with 10000000000000000%Z. lra. }
    rewrite V. set (v := (9728340843400927 / 10000000000000000)%R).
    assert (M : mag radix2 v = 0%Z :> Z).
    { apply mag_unique. rewrite Rabs_pos_eq by (unfold v; lra). change (bpow radix2 (0 - 1)) with (/ 2)%R. change (bpow radix2 0) with 1%R. unfold v. lra. }
    unfold round, F2R, scaled_mantissa, cexp. rewrite M. change (FLT_exp (-1074) 53 0) with (-53)%Z. cbn [Fnum Fexp].
    assert (Z : ZnearestE (v * bpow radix2 (- -53)) = 8762510439454718%Z).
    { apply Znearest_imp. change (bpow radix2 (- -53)) with 9007199254740992%R. unfold v. apply Rabs_def1; lra. }
    rewrite Z. reflexivity.
  - apply read_text_iff. exists "", "0.9728340843400927", "". repeat split; try constructor. exists near_one. split; [exact W|]. split; [reflexivity|].
    unfold reads. cbn [ft_minus ft_whole ft_part ft_exp near_one]. change (list_ascii_of_string _) with (list_ascii_of_string "9728340843400927"). unfold number_value.
    change (add_digits 0 ["0"%char]) with (0, 1, @nil ascii)%Z. cbv iota beta. change (add_digits 0 (list_ascii_of_string "9728340843400927")) with (9728340843400927, 16, @nil ascii)%Z. cbv iota beta.
    cbn [List.length Z.of_nat Z.sub Z.opp Z.add]. unfold from_parts. cbn [scale10 Z.abs Z.leb Z.compare Pos.compare Pos.compare_cont Z.opp]. reflexivity.
  - assert (Q : feqb (fdiv (f_of_Z 9728340843400927) (pow10 16)) (fnorm 8762510439454719 (-53)) = true) by (vm_compute; reflexivity).
    assert (Fy : fin (fdiv (f_of_Z 9728340843400927) (pow10 16))) by (vm_compute; reflexivity).
    revert Q Fy. generalize (fdiv (f_of_Z 9728340843400927) (pow10 16)). intros y Q Fy. rewrite (proj1 (feqb_eq _ _ Fy F2) Q), R1, R2. intros E. apply Rmult_eq_reg_r in E; [apply eq_IZR in E; discriminate|]. pose proof (bpow_gt_0 radix2 (-53)). lra.
Qed.

(** ** A text *)
Definition small_text : string := " {""fr"": 60, ""ip"":0,""op"" :60.5,""w"":1200,
  ""h"":12, ""nm"":""a\n\u00e9\ud83d\ude00"",""layers"":[ ]}".
Definition small_name : string := "a" ++ String "010" (String "195" (String "169" (String "240" (String "159" (String "152" (String "128" "")))))).
Definition small_value : json :=
  JObj [("fr", JInt 60); ("ip", JInt 0); ("op", JFloat (fnorm 121 (-1))); ("w", JInt 1200); ("h", JInt 12); ("nm", JStr small_name); ("layers", JArr [])]%list.
Definition digits_of (t : string) : list ascii := list_ascii_of_string t.
Lemma digits_are t : forallb is_digit (list_ascii_of_string t) = true -> Forall digit (list_ascii_of_string t).
Proof. intros H. rewrite forallb_forall in H. apply Forall_forall. intros c I. apply digit_ok. auto. Qed.
Lemma whole_exact t n : forallb is_digit (list_ascii_of_string t) = true -> whole_ok (list_ascii_of_string t) = true -> amount (list_ascii_of_string t) = n -> (n <= 18446744073709551615)%Z ->
  exact_number t (JInt n).
Proof.
  intros D W A B. exists (mkFT false (list_ascii_of_string t) None None). split; [|split].
  - split; [now apply digits_are|]. split; [now apply whole_shape|]. split; exact I.
  - unfold figure_string. cbn [ft_minus ft_whole ft_part ft_exp append]. now rewrite string_of_list_ascii_of_string, !sapp_nil.
  - left. unfold integral, signed_digits, figure_digits, part_digits. cbn [ft_minus ft_whole ft_part ft_exp]. rewrite app_nil_r, A. auto.
Qed.
Lemma half_exact : exact_number "60.5" (JFloat (fnorm 121 (-1))).
Proof.
  exists (mkFT false ["6"%char; "0"%char] (Some ["5"%char]) None). split; [|split; [reflexivity|right; split; [intros (H & _); discriminate|split]]].
  - split; [apply (digits_are "60"); reflexivity|]. split; [right; eexists _, _; split; [reflexivity|discriminate]|]. split; [split; [apply (digits_are "5"); reflexivity|discriminate]|exact I].
  - split; [|split]; vm_compute; (reflexivity || discriminate).
  - exists (fnorm 121 (-1)). split; [|reflexivity]. destruct (fnorm_R 121 (-1) ltac:(lia) ltac:(lia)) as [R F]. split; [exact F|]. split; [|vm_compute; reflexivity].
    replace (figure_value _) with (B2R (fnorm 121 (-1))); [symmetry; apply rnd_f64|]. rewrite R. unfold figure_value. cbn [ft_minus].
    change (figure_digits _) with 605%Z. change (ten_exp _) with (-1)%Z. rewrite power_ten. cbn [Z.leb Z.compare Z.opp]. change (10 ^ 1)%Z with 10%Z. change (bpow radix2 (-1)) with (/ 2)%R. lra.
Qed.
Lemma plain_key t : forallb (fun c => negb (Ascii.eqb c """") && negb (Ascii.eqb c "\") && (32 <=? nat_of_ascii c)%nat) (list_ascii_of_string t) = true -> spells t t.
Proof.
  induction t as [|c t IH]; [constructor|]. cbn [list_ascii_of_string forallb]. intros H. apply andb_prop in H as [H T]. apply andb_prop in H as [H C]. apply andb_prop in H as [A B].
  apply negb_true_iff in A, B. apply Ascii.eqb_neq in A, B. apply Nat.leb_le in C. constructor; auto. unfold code. lia.
Qed.
Lemma name_spelt : spells small_name "a\n\u00e9\ud83d\ude00".
Proof.
  assert (H4 : forall h n r, four_hex (h ++ r) = Some (n, r) -> hex4 h n).
  { intros h n r H. apply hex4_ok in H as (h' & H & E). assert (h = h'); [|congruence]. clear -E. revert h' E. induction h as [|c h IH]; intros [|c' h'] E; cbn in E; auto.
    - apply (f_equal String.length) in E. cbn in E. rewrite slen in E. lia.
    - apply (f_equal String.length) in E. cbn in E. rewrite slen in E. lia.
    - injection E as -> E. f_equal. auto. }
  unfold small_name. cbn [append]. apply sp_plain; [discriminate|discriminate|unfold code; cbn; lia|].
  apply (sp_short "n" "010"); [cbn; tauto|]. apply (sp_code "00e9" 233 (utf8 233)); [apply (H4 _ _ ""); reflexivity|unfold surrogate; lia|apply utf8_ok; lia|].
  apply (sp_pair "d83d" 55357 "de00" 56832 (utf8 128512)); [apply (H4 _ _ ""); reflexivity|apply (H4 _ _ ""); reflexivity|lia|lia|apply (utf8_ok 128512); lia|]. constructor.
Qed.
Lemma blank_ok w : forallb is_space (list_ascii_of_string w) = true -> blank w.
Proof. intros H. rewrite forallb_forall in H. apply Forall_forall. intros c I. apply space_in. auto. Qed.
Example C101_applies : document exact_number 127 small_value small_text /\ distinct_names small_value /\
  exists c, forall E, from_str E small_text = Some (Ok (c E)).
Proof.
  assert (D : document exact_number 127 small_value small_text).
  { exists " ", (substring 1 (String.length small_text - 1) small_text), "". split; [now apply blank_ok|]. split; [|split; [constructor|reflexivity]].
    apply (to_object exact_number 126 _ (substring 2 (String.length small_text - 3) small_text)).
    apply (ms_more exact_number 126 "" "fr" "fr" "" " " (JInt 60) "60" "" _ _); try (now apply blank_ok); [now apply plain_key|constructor; now apply whole_exact|].
    apply (ms_more exact_number 126 " " "ip" "ip" "" "" (JInt 0) "0" "" _ _); try (now apply blank_ok); [now apply plain_key|constructor; now apply whole_exact|].
    apply (ms_more exact_number 126 "" "op" "op" " " "" (JFloat (fnorm 121 (-1))) "60.5" "" _ _); try (now apply blank_ok); [now apply plain_key|constructor; exact half_exact|].
    apply (ms_more exact_number 126 "" "w" "w" "" "" (JInt 1200) "1200" "" _ _); try (now apply blank_ok); [now apply plain_key|constructor; now apply whole_exact|].
    apply (ms_more exact_number 126 (String "010" "  ") "h" "h" "" "" (JInt 12) "12" "" _ _); try (now apply blank_ok); [now apply plain_key|constructor; now apply whole_exact|].
    apply (ms_more exact_number 126 " " "nm" "nm" "" "" (JStr small_name) """a\n\u00e9\ud83d\ude00""" "" _ _); try (now apply blank_ok); [now apply plain_key|apply (to_string exact_number 126 small_name "a\n\u00e9\ud83d\ude00"), name_spelt|].
    apply (ms_one exact_number 126 "" "layers" "layers" "" "" (JArr []) "[ ]" ""); try (now apply blank_ok); [now apply plain_key|]. apply (to_empty exact_number 125 " "). now apply blank_ok. }
  assert (N : distinct_names small_value).
  { repeat constructor; cbn [map fst In]; intuition discriminate. }
  split; [exact D|]. split; [exact N|]. eexists. intros E. rewrite (C101_reads E _ _ D N). reflexivity.
Qed.
