(** Reading JSON text: values. *)
From Coq Require Import ZArith Reals Bool List String Ascii Lia Lra.
From Flocq Require Import Core BinarySingleNaN.
From Verif Require Import F64 Kurbo F64Facts Value Animated Schema Import Serde JsonText TextSpec TextFacts.
Import ListNotations.
Local Open Scope string_scope.

Scheme text_ind := Induction for text_of Sort Prop
  with texts_ind := Induction for texts_of Sort Prop
  with members_ind := Induction for members_of Sort Prop.
Combined Scheme texts_mut from text_ind, texts_ind, members_ind.

(** how a value starts *)
Definition starts (t : string) : Prop := exists c t', t = String c t' /\ is_space c = false /\ c <> "]"%char /\ c <> "}"%char.
Ltac ascii_consts := repeat match goal with |- context [Ascii.eqb (Ascii ?a ?b ?c ?d ?e ?f ?g ?h) (Ascii ?a' ?b' ?c' ?d' ?e' ?f' ?g' ?h')] =>
  let v := eval compute in (Ascii.eqb (Ascii a b c d e f g h) (Ascii a' b' c' d' e' f' g' h')) in
  change (Ascii.eqb (Ascii a b c d e f g h) (Ascii a' b' c' d' e' f' g' h')) with v end; cbv iota.
Lemma figure_start f : well_formed f -> exists c t, figure_string f = String c t /\ (digit c \/ c = "-"%char).
Proof.
  destruct f as [b w p x]. unfold well_formed, figure_string. cbn [ft_minus ft_whole ft_part ft_exp]. intros (F & S & _).
  destruct b; [eexists _, _; split; [reflexivity|now right]|]. destruct w as [|c w]; [destruct S as [S|(c & l & S & _)]; discriminate|].
  eexists c, _. split; [reflexivity|]. left. now inversion F.
Qed.
Lemma figure_char c : digit c \/ c = "-"%char -> is_space c = false /\ c <> "]"%char /\ c <> "}"%char /\
  Ascii.eqb c "n" = false /\ Ascii.eqb c "t" = false /\ Ascii.eqb c "f" = false /\ Ascii.eqb c """" = false /\ Ascii.eqb c "[" = false /\ Ascii.eqb c "{" = false.
Proof.
  intros H. assert (G : forall x, (code x < 48 \/ 57 < code x)%Z -> x <> "-"%char -> c <> x).
  { intros x R N ->. destruct H as [H|H]; [unfold digit in H; lia|contradiction]. }
  unfold is_space. rewrite !orb_false_iff, !Ascii.eqb_neq. repeat split; apply G; try discriminate; unfold code; cbn; lia.
Qed.
Lemma text_starts d j t : text_of read_number d j t -> starts t.
Proof.
  destruct 1; try (eexists _, _; split; [reflexivity|repeat split; discriminate]).
  destruct H as (f & W & -> & _). destruct (figure_start f W) as (c & t & E & H). rewrite E. destruct (figure_char c H) as (S & A & B & _). exists c, t. auto.
Qed.
Lemma blank_stops w r : blank w -> stops r -> stops (w ++ r).
Proof.
  intros B S. destruct w as [|c w]; [exact S|]. right. exists c, (w ++ r). split; [reflexivity|]. inversion B; subst. cbn [In] in *. tauto.
Qed.
Lemma stops_char c r : In c [","%char; "]"%char; "}"%char] -> stops (String c r).
Proof. intros H. right. exists c, r. split; [reflexivity|]. cbn [In] in *. tauto. Qed.
Lemma skip_starts t r : starts t -> skip (t ++ r) = t ++ r.
Proof. intros (c & t' & -> & S & _). cbn. now rewrite S. Qed.
Lemma value_blank n d w s : blank w -> value n d (w ++ s) = value n d s.
Proof. intros B. destruct n as [|n]; [reflexivity|]. cbn [value]. now rewrite blank_skip. Qed.
Lemma members_blank n d w s : blank w -> members n d (w ++ s) = members n d s.
Proof. intros B. destruct n as [|n]; [reflexivity|]. cbn [members]. now rewrite blank_skip. Qed.

Lemma reads_all :
  (forall d j t, text_of read_number d j t -> forall n r, (2 * String.length t < n)%nat -> stops r -> value n (S d) (t ++ r) = Some (j, r)) /\
  (forall d l t, texts_of read_number d l t -> forall n r, (2 * String.length t + 1 < n)%nat -> elements n (S d) (t ++ String "]" r) = Some (l, r)) /\
  (forall d l t, members_of read_number d l t -> forall n r, (2 * String.length t + 1 < n)%nat -> members n (S d) (t ++ String "}" r) = Some (l, r)).
Proof.
  apply (texts_mut read_number (fun d j t _ => forall n r, (2 * String.length t < n)%nat -> stops r -> value n (S d) (t ++ r) = Some (j, r))
    (fun d l t _ => forall n r, (2 * String.length t + 1 < n)%nat -> elements n (S d) (t ++ String "]" r) = Some (l, r))
    (fun d l t _ => forall n r, (2 * String.length t + 1 < n)%nat -> members n (S d) (t ++ String "}" r) = Some (l, r))).
  - intros d n r L S. destruct n as [|n]; [lia|]. cbn [value append skip]. change (is_space "n") with false. cbv iota. ascii_consts. now change "ull" with ("ull" ++ "").
  - intros d n r L S. destruct n as [|n]; [lia|]. reflexivity.
  - intros d n r L S. destruct n as [|n]; [lia|]. reflexivity.
  - intros d j t (f & W & -> & R) n r L S. destruct n as [|n]; [lia|]. cbn [value].
    destruct (figure_start f W) as (c & t & E & H). destruct (figure_char c H) as (Sp & _ & _ & E1 & E2 & E3 & E4 & E5 & E6).
    pose proof (figure_reads f j r W R S) as N. rewrite E in *. cbn [append skip]. cbn [append] in N. rewrite Sp, E1, E2, E3, E4, E5, E6. exact N.
  - intros d x t S n r L St. destruct n as [|n]; [lia|]. cbn [append value skip]. change (is_space """") with false. cbv iota. ascii_consts.
    rewrite sapp_assoc. cbn [append]. rewrite (spells_chars x t S); [reflexivity|]. rewrite slen. cbn [String.length]. lia.
  - intros d w B n r L St. destruct n as [|n]; [lia|]. cbn [append value skip]. change (is_space "[") with false. cbv iota. ascii_consts.
    rewrite sapp_assoc, blank_skip by exact B. reflexivity.
  - intros d l t T IH n r L St. destruct n as [|n]; [lia|]. cbn [append value skip]. change (is_space "[") with false. cbv iota. ascii_consts.
    rewrite sapp_assoc. cbn [append]. cbn [append String.length] in L. rewrite slen in L. cbn [String.length] in L.
    assert (Hs : exists c t', skip (t ++ String "]" r) = String c t' /\ Ascii.eqb c "]" = false).
    { destruct T; rewrite ?sapp_assoc, blank_skip by auto; rewrite (skip_starts t) by (eapply text_starts; eauto);
      match goal with X : text_of _ _ _ _ |- _ => destruct (text_starts _ _ _ X) as (c & t' & -> & _ & N & _) end; apply Ascii.eqb_neq in N; cbn; eauto. }
    destruct Hs as (c & t' & -> & N). rewrite N, IH by lia. reflexivity.
  - intros d w B n r L St. destruct n as [|n]; [lia|]. cbn [append value skip]. change (is_space "{") with false. cbv iota. ascii_consts.
    rewrite sapp_assoc, blank_skip by exact B. reflexivity.
  - intros d l t T IH n r L St. destruct n as [|n]; [lia|]. cbn [append value skip]. change (is_space "{") with false. cbv iota. ascii_consts.
    rewrite sapp_assoc. cbn [append]. cbn [append String.length] in L. rewrite slen in L. cbn [String.length] in L.
    assert (Hs : exists t', skip (t ++ String "}" r) = String """" t').
    { destruct T; rewrite ?sapp_assoc, blank_skip by auto; cbn [append skip]; change (is_space """") with false; cbv iota; eauto. }
    destruct Hs as (t' & ->). ascii_consts. rewrite IH by lia. reflexivity.
  - intros d w1 j t w2 B1 T IH B2 n r L. destruct n as [|n]; [lia|]. cbn [elements]. rewrite !slen in L. rewrite ?sapp_assoc, value_blank by exact B1.
    rewrite IH; [|lia|apply blank_stops; [exact B2|apply stops_char; cbn; tauto]]. rewrite blank_skip by exact B2. reflexivity.
  - intros d w1 j t w2 l r0 B1 T IH B2 Ts IHs n r L. destruct n as [|n]; [lia|]. cbn [elements]. rewrite !slen in L. cbn [append String.length] in L. rewrite ?sapp_assoc, value_blank by exact B1.
    cbn [append]. rewrite IH; [|lia|apply blank_stops; [exact B2|apply stops_char; cbn; tauto]]. rewrite blank_skip by exact B2. cbn [skip]. change (is_space ",") with false. cbv iota. ascii_consts.
    rewrite IHs by lia. reflexivity.
  - intros d w1 k kt w2 w3 j t w4 B1 Sk B2 B3 T IH B4 n r L. destruct n as [|n]; [lia|]. rewrite ?sapp_assoc, members_blank by exact B1. cbn [members append skip]. change (is_space """") with false. cbv iota. ascii_consts.
    repeat (rewrite ?slen in L; cbn [append String.length] in L). rewrite ?sapp_assoc. cbn [append]. rewrite (spells_chars k kt Sk) by (rewrite !slen; cbn [String.length]; lia).
    rewrite ?sapp_assoc, blank_skip by exact B2. cbn [append skip]. change (is_space ":") with false. cbv iota. ascii_consts. rewrite ?sapp_assoc, value_blank by exact B3.
    rewrite IH; [|lia|apply blank_stops; [exact B4|apply stops_char; cbn; tauto]]. rewrite blank_skip by exact B4. reflexivity.
  - intros d w1 k kt w2 w3 j t w4 l r0 B1 Sk B2 B3 T IH B4 Ts IHs n r L. destruct n as [|n]; [lia|]. rewrite ?sapp_assoc, members_blank by exact B1. cbn [members append skip]. change (is_space """") with false. cbv iota. ascii_consts.
    repeat (rewrite ?slen in L; cbn [append String.length] in L). rewrite ?sapp_assoc. cbn [append]. rewrite (spells_chars k kt Sk) by (rewrite !slen; cbn [String.length]; lia).
    rewrite ?sapp_assoc, blank_skip by exact B2. cbn [append skip]. change (is_space ":") with false. cbv iota. ascii_consts. rewrite ?sapp_assoc, value_blank by exact B3.
    cbn [append]. rewrite IH; [|lia|apply blank_stops; [exact B4|apply stops_char; cbn; tauto]]. rewrite blank_skip by exact B4. cbn [skip]. change (is_space ",") with false. cbv iota. ascii_consts.
    rewrite IHs by lia. reflexivity.
Qed.

Lemma skip_cut s c r : skip s = String c r -> exists w, blank w /\ s = w ++ String c r.
Proof. intros H. destruct (skip_split s) as (w & B & E & _). rewrite H in E. eauto. Qed.
Lemma reads_only n :
  (forall d s j r, value n (S d) s = Some (j, r) -> exists w t, blank w /\ text_of read_number d j t /\ s = w ++ t ++ r) /\
  (forall d s l r, elements n (S d) s = Some (l, r) -> exists t, texts_of read_number d l t /\ s = t ++ String "]" r) /\
  (forall d s l r, members n (S d) s = Some (l, r) -> exists t, members_of read_number d l t /\ s = t ++ String "}" r).
Proof.
  induction n as [|n (IHv & IHe & IHm)]; [repeat split; intros; discriminate|]. split; [|split].
  - intros d s j r. cbn [value]. destruct (skip s) as [|c s1] eqn:K; [discriminate|]. apply skip_cut in K as (w & B & ->).
    destruct (Ascii.eqb_spec c "n"); [subst c|].
    { destruct (expect "ull" s1) eqn:X; [|discriminate]. apply expect_inv in X. intros Q. injection Q as <- <-. exists w, "null". repeat split; [exact B|constructor|now rewrite X]. }
    destruct (Ascii.eqb_spec c "t"); [subst c|].
    { destruct (expect "rue" s1) eqn:X; [|discriminate]. apply expect_inv in X. intros Q. injection Q as <- <-. exists w, "true". repeat split; [exact B|constructor|now rewrite X]. }
    destruct (Ascii.eqb_spec c "f"); [subst c|].
    { destruct (expect "alse" s1) eqn:X; [|discriminate]. apply expect_inv in X. intros Q. injection Q as <- <-. exists w, "false". repeat split; [exact B|constructor|now rewrite X]. }
    destruct (Ascii.eqb_spec c """"); [subst c|].
    { destruct (chars (String.length s1) s1) as [[x s2]|] eqn:X; [|discriminate]. apply chars_spells in X as (t & -> & S). intros Q. injection Q as <- <-.
      exists w, ("""" ++ t ++ """"). split; [exact B|]. split; [now constructor|]. cbn [append]. now rewrite sapp_assoc. }
    destruct (Ascii.eqb_spec c "["); [subst c|].
    { destruct d as [|d]; [discriminate|]. destruct (skip s1) as [|c s2] eqn:K2; [discriminate|]. destruct (Ascii.eqb_spec c "]").
      - subst c. apply skip_cut in K2 as (w2 & B2 & ->). intros Q. injection Q as <- <-. exists w, ("[" ++ w2 ++ "]"). split; [exact B|]. split; [now constructor|]. cbn [append]. now rewrite sapp_assoc.
      - destruct (elements n (S d) s1) as [[l s3]|] eqn:X; [|discriminate]. apply IHe in X as (t & T & ->). intros Q. injection Q as <- <-.
        exists w, ("[" ++ t ++ "]"). split; [exact B|]. split; [now constructor|]. cbn [append]. now rewrite sapp_assoc. }
    destruct (Ascii.eqb_spec c "{"); [subst c|].
    { destruct d as [|d]; [discriminate|]. destruct (skip s1) as [|c s2] eqn:K2; [discriminate|]. destruct (Ascii.eqb_spec c "}").
      - subst c. apply skip_cut in K2 as (w2 & B2 & ->). intros Q. injection Q as <- <-. exists w, ("{" ++ w2 ++ "}"). split; [exact B|]. split; [now constructor|]. cbn [append]. now rewrite sapp_assoc.
      - destruct (members n (S d) s1) as [[l s3]|] eqn:X; [|discriminate]. apply IHm in X as (t & T & ->). intros Q. injection Q as <- <-.
        exists w, ("{" ++ t ++ "}"). split; [exact B|]. split; [now constructor|]. cbn [append]. now rewrite sapp_assoc. }
    intros Q. apply number_inv in Q as (f & W & R & E). exists w, (figure_string f). split; [exact B|]. split; [constructor; exists f; auto|now rewrite E].
  - intros d s l r. cbn [elements]. destruct (value n (S d) s) as [[x s1]|] eqn:X; [|discriminate]. apply IHv in X as (w & t & B & T & ->).
    destruct (skip s1) as [|c s2] eqn:K; [discriminate|]. apply skip_cut in K as (w2 & B2 & ->). destruct (Ascii.eqb_spec c "]").
    + subst c. intros Q. injection Q as <- <-. exists (w ++ t ++ w2). split; [now constructor|]. now rewrite ?sapp_assoc.
    + destruct (Ascii.eqb_spec c ","); [|discriminate]. subst c. destruct (elements n (S d) s2) as [[l' s3]|] eqn:X; [|discriminate]. apply IHe in X as (t2 & T2 & ->).
      intros Q. injection Q as <- <-. exists (w ++ t ++ w2 ++ "," ++ t2). split; [now constructor|]. rewrite ?sapp_assoc. reflexivity.
  - intros d s l r. cbn [members]. destruct (skip s) as [|q s1] eqn:K; [discriminate|]. apply skip_cut in K as (w1 & B1 & ->). destruct (Ascii.eqb_spec q """"); [|discriminate]. subst q.
    destruct (chars (String.length s1) s1) as [[k s2]|] eqn:X; [|discriminate]. apply chars_spells in X as (kt & -> & Sk).
    destruct (skip s2) as [|c s3] eqn:K; [discriminate|]. apply skip_cut in K as (w2 & B2 & ->). destruct (Ascii.eqb_spec c ":"); [|discriminate]. subst c.
    destruct (value n (S d) s3) as [[x s4]|] eqn:X; [|discriminate]. apply IHv in X as (w3 & t & B3 & T & ->).
    destruct (skip s4) as [|c s5] eqn:K; [discriminate|]. apply skip_cut in K as (w4 & B4 & ->). destruct (Ascii.eqb_spec c "}").
    + subst c. intros Q. injection Q as <- <-. exists (w1 ++ """" ++ kt ++ """" ++ w2 ++ ":" ++ w3 ++ t ++ w4). split; [now constructor|].
      repeat (rewrite ?sapp_assoc; cbn [append]). reflexivity.
    + destruct (Ascii.eqb_spec c ","); [|discriminate]. subst c. destruct (members n (S d) s5) as [[l' s6]|] eqn:X; [|discriminate]. apply IHm in X as (t2 & T2 & ->).
      intros Q. injection Q as <- <-. exists (w1 ++ """" ++ kt ++ """" ++ w2 ++ ":" ++ w3 ++ t ++ w4 ++ "," ++ t2). split; [now constructor|].
      repeat (rewrite ?sapp_assoc; cbn [append]). reflexivity.
Qed.
Lemma read_text_iff s j : read_text s = Some j <-> document read_number 127 j s.
Proof.
  unfold read_text, document. split.
  - destruct (value (2 * String.length s + 2) 128 s) as [[j' r]|] eqn:V; [|discriminate]. apply (proj1 (reads_only _) 127%nat) in V as (w & t & B & T & ->).
    destruct (skip r) eqn:K; [|discriminate]. intros Q. injection Q as <-. exists w, t, r. repeat split; auto.
    destruct (skip_split r) as (w2 & B2 & E & _). rewrite K, sapp_nil in E. now rewrite E.
  - intros (w1 & t & w2 & B1 & T & B2 & ->). rewrite value_blank by exact B1.
    rewrite (proj1 reads_all 127%nat j t T).
    + now rewrite skip_blank.
    + rewrite !slen. lia.
    + rewrite <- (sapp_nil w2). apply blank_stops; [exact B2|now left].
Qed.
