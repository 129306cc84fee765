(** Reading JSON text: the reader accepts exactly the texts of [TextSpec.v]. *)
From Coq Require Import ZArith Reals Bool List String Ascii Lia Lra.
From Flocq Require Import Core BinarySingleNaN.
From Verif Require Import F64 Kurbo F64Facts Value Animated Schema Import Serde JsonText TextSpec.
Import ListNotations.
Local Open Scope string_scope.

Lemma sapp_assoc a b c : (a ++ b) ++ c = a ++ (b ++ c).
Proof. induction a as [|x a IH]; [reflexivity|]. cbn. now rewrite IH. Qed.
Lemma sapp_nil a : a ++ "" = a.
Proof. induction a as [|x a IH]; [reflexivity|]. cbn. now rewrite IH. Qed.
Lemma slen a b : String.length (a ++ b) = (String.length a + String.length b)%nat.
Proof. induction a as [|x a IH]; [reflexivity|]. cbn. now rewrite IH. Qed.
Lemma eqb_refl c : Ascii.eqb c c = true.
Proof. apply Ascii.eqb_refl. Qed.

(** ** White space *)
Lemma space_in c : is_space c = true <-> In c [" "%char; "009"%char; "010"%char; "013"%char].
Proof.
  unfold is_space. rewrite !orb_true_iff, !Ascii.eqb_eq. cbn [In]. intuition congruence.
Qed.
Lemma blank_skip w s : blank w -> skip (w ++ s) = skip s.
Proof.
  unfold blank. induction w as [|c w IH]; [reflexivity|]. cbn [list_ascii_of_string]. intros H. inversion H; subst. cbn.
  apply space_in in H2. rewrite H2. auto.
Qed.
Lemma skip_blank w : blank w -> skip w = "".
Proof. intros B. rewrite <- (sapp_nil w), blank_skip; auto. Qed.
Lemma skip_here c r : is_space c = false -> skip (String c r) = String c r.
Proof. intros H. cbn. now rewrite H. Qed.
Lemma skip_split s : exists w, blank w /\ s = w ++ skip s /\ (skip s = "" \/ exists c r, skip s = String c r /\ is_space c = false).
Proof.
  induction s as [|c s (w & B & E & H)].
  - exists "". repeat split; [constructor|now left].
  - cbn [skip]. destruct (is_space c) eqn:S.
    + exists (String c w). split; [|split].
      * unfold blank. cbn. constructor; [now apply space_in|exact B].
      * cbn. now rewrite <- E.
      * exact H.
    + exists "". split; [constructor|split; [reflexivity|right; eauto]].
Qed.
Lemma expect_app w s : expect w (w ++ s) = Some s.
Proof. induction w as [|a w IH]; [destruct s; reflexivity|]. cbn. now rewrite eqb_refl. Qed.
Lemma expect_inv w s r : expect w s = Some r -> s = w ++ r.
Proof.
  revert s. induction w as [|a w IH]; intros s H; [destruct s; cbn in H; injection H as <-; reflexivity|].
  destruct s as [|c s]; [discriminate|]. cbn in H. destruct (Ascii.eqb_spec a c); [|discriminate]. subst. cbn. f_equal. auto.
Qed.

(** ** Strings *)
Lemma hex_ok c v : hex_value c = Some v <-> hex c v.
Proof.
  unfold hex_value, hex, code. pose proof (nat_ascii_bounded c). set (n := Z.of_nat (nat_of_ascii c)).
  destruct (Z.leb_spec 48 n), (Z.leb_spec n 57), (Z.leb_spec 65 n), (Z.leb_spec n 70), (Z.leb_spec 97 n), (Z.leb_spec n 102); cbn [andb]; split; intros Q;
  try discriminate; try (injection Q as <-); try (f_equal; lia); try lia.
Qed.
Lemma hex4_ok s n r : four_hex s = Some (n, r) <-> exists h, hex4 h n /\ s = h ++ r.
Proof.
  split.
  - destruct s as [|a [|b [|c [|d s]]]]; try discriminate. cbn [four_hex].
    destruct (hex_value a) eqn:A; [|discriminate]. destruct (hex_value b) eqn:B; [|discriminate].
    destruct (hex_value c) eqn:C; [|discriminate]. destruct (hex_value d) eqn:D; [|discriminate]. intros Q. injection Q as <- <-.
    exists (String a (String b (String c (String d "")))). split; [|reflexivity].
    exists a, b, c, d, z, z0, z1, z2. rewrite <- !hex_ok. repeat split; auto. lia.
  - intros (h & (a & b & c & d & v1 & v2 & v3 & v4 & -> & A & B & C & D & ->) & ->). cbn. apply hex_ok in A, B, C, D. rewrite A, B, C, D. do 2 f_equal. lia.
Qed.
Lemma hex4_range h n : hex4 h n -> (0 <= n < 65536)%Z.
Proof. intros (a & b & c & d & v1 & v2 & v3 & v4 & -> & (A & _) & (B & _) & (C & _) & (D & _) & ->). lia. Qed.
Lemma code_byte n : (0 <= n < 256)%Z -> code (byte n) = n.
Proof. intros H. unfold code, byte. rewrite nat_ascii_embedding by lia. lia. Qed.
Lemma code_inj a b : code a = code b -> a = b.
Proof. unfold code. intros H. apply Nat2Z.inj in H. rewrite <- (ascii_nat_embedding a), <- (ascii_nat_embedding b). now f_equal. Qed.
Lemma bytes_inj l s t : bytes l s -> bytes l t -> s = t.
Proof.
  unfold bytes. revert s t. induction l as [|x l IH]; intros [|a s] [|b t] H1 H2; try discriminate; [reflexivity|].
  cbn in H1, H2. injection H1 as A1 B1. injection H2 as A2 B2. f_equal; [apply code_inj; congruence|auto].
Qed.
Lemma split64 n : (0 <= n)%Z -> n = (n / 64 * 64 + n mod 64)%Z /\ (0 <= n mod 64 < 64)%Z /\ (0 <= n / 64)%Z.
Proof. intros H. pose proof (Z.div_mod n 64 ltac:(lia)). pose proof (Z.mod_pos_bound n 64 ltac:(lia)). pose proof (Z.div_pos n 64 H ltac:(lia)). lia. Qed.
Lemma utf8_ok n : (0 <= n < 1114112)%Z -> encoded n (utf8 n).
Proof.
  intros H. unfold utf8, encoded. destruct (Z.ltb_spec n 128); [left|right].
  { split; [lia|]. unfold bytes. cbn [list_ascii_of_string map]. rewrite code_byte by lia. reflexivity. }
  replace (n / 4096)%Z with (n / 64 / 64)%Z by (rewrite Z.div_div by lia; reflexivity).
  replace (n / 262144)%Z with (n / 64 / 64 / 64)%Z by (rewrite !Z.div_div by lia; reflexivity).
  destruct (split64 n ltac:(lia)) as (E1 & R1 & P1). destruct (split64 (n / 64) P1) as (E2 & R2 & P2). destruct (split64 (n / 64 / 64) P2) as (E3 & R3 & P3).
  destruct (Z.ltb_spec n 2048); [left|right; destruct (Z.ltb_spec n 65536); [left|right]].
  - exists (n / 64)%Z, (n mod 64)%Z. repeat split; try lia. unfold bytes. cbn [list_ascii_of_string map]. rewrite !code_byte by lia. reflexivity.
  - exists (n / 64 / 64)%Z, (n / 64 mod 64)%Z, (n mod 64)%Z. repeat split; try lia. unfold bytes. cbn [list_ascii_of_string map]. rewrite !code_byte by lia. reflexivity.
  - exists (n / 64 / 64 / 64)%Z, (n / 64 / 64 mod 64)%Z, (n / 64 mod 64)%Z, (n mod 64)%Z. repeat split; try lia. unfold bytes. cbn [list_ascii_of_string map]. rewrite !code_byte by lia. reflexivity.
Qed.
Lemma encoded_one n s t : encoded n s -> encoded n t -> s = t.
Proof.
  intros [(H1 & B1)|[(a & b & H1 & R1 & P1 & B1)|[(a & b & c & H1 & R1 & P1 & Q1 & B1)|(a & b & c & d & H1 & R1 & P1 & Q1 & S1 & B1)]]]
         [(H2 & B2)|[(a' & b' & H2 & R2 & P2 & B2)|[(a' & b' & c' & H2 & R2 & P2 & Q2 & B2)|(a' & b' & c' & d' & H2 & R2 & P2 & Q2 & S2 & B2)]]]; try lia.
  - eapply bytes_inj; eauto.
  - assert (a = a' /\ b = b') as [-> ->] by lia. eapply bytes_inj; eauto.
  - assert (a = a' /\ b = b' /\ c = c') as (-> & -> & ->) by lia. eapply bytes_inj; eauto.
  - assert (a = a' /\ b = b' /\ c = c' /\ d = d') as (-> & -> & -> & ->) by lia. eapply bytes_inj; eauto.
Qed.
Lemma short_ok e c : short_escape e = Some c <-> In (e, c) shorts.
Proof.
  unfold short_escape, shorts. cbn [In]. split.
  - repeat match goal with |- context [Ascii.eqb e ?x] => destruct (Ascii.eqb_spec e x); [subst; intros Q; injection Q as <-; tauto|] end. discriminate.
  - intros H. repeat (destruct H as [H|H]; [injection H as <- <-; reflexivity|]). contradiction.
Qed.
Lemma escape_code h n r : hex4 h n -> ~ surrogate n -> unicode_escape (h ++ r) = Some (utf8 n, r).
Proof.
  intros H S. unfold unicode_escape. rewrite (proj2 (hex4_ok _ n r)) by eauto. unfold surrogate in S. pose proof (hex4_range _ _ H).
  destruct (Z.leb_spec 56320 n), (Z.leb_spec n 57343), (Z.leb_spec 55296 n), (Z.leb_spec n 56319); cbn [andb]; try lia; reflexivity.
Qed.
Lemma escape_pair h n h' n' r : hex4 h n -> hex4 h' n' -> (55296 <= n < 56320)%Z -> (56320 <= n' < 57344)%Z ->
  unicode_escape (h ++ "\u" ++ h' ++ r) = Some (utf8 ((n - 55296) * 1024 + (n' - 56320) + 65536), r).
Proof.
  intros H H' R R'. unfold unicode_escape. rewrite (proj2 (hex4_ok _ n ("\u" ++ h' ++ r))) by eauto.
  destruct (Z.leb_spec 56320 n), (Z.leb_spec n 57343), (Z.leb_spec 55296 n), (Z.leb_spec n 56319); cbn [andb]; try lia.
  rewrite expect_app, (proj2 (hex4_ok _ n' r)) by eauto.
  destruct (Z.leb_spec 56320 n'), (Z.leb_spec n' 57343); cbn [andb]; try lia. reflexivity.
Qed.
Lemma escape_inv s u r : unicode_escape s = Some (u, r) ->
  (exists h n, hex4 h n /\ ~ surrogate n /\ encoded n u /\ s = h ++ r) \/
  (exists h n h' n', hex4 h n /\ hex4 h' n' /\ (55296 <= n < 56320)%Z /\ (56320 <= n' < 57344)%Z /\
     encoded ((n - 55296) * 1024 + (n' - 56320) + 65536) u /\ s = h ++ "\u" ++ h' ++ r).
Proof.
  unfold unicode_escape. destruct (four_hex s) as [[n r1]|] eqn:F; [|discriminate]. apply hex4_ok in F as (h & H & ->). pose proof (hex4_range _ _ H) as R.
  destruct ((56320 <=? n) && (n <=? 57343))%Z eqn:A; [discriminate|].
  destruct ((55296 <=? n) && (n <=? 56319))%Z eqn:B.
  - destruct (expect "\u" r1) as [r2|] eqn:X; [|discriminate]. apply expect_inv in X. subst r1.
    destruct (four_hex r2) as [[m r3]|] eqn:F; [|discriminate]. apply hex4_ok in F as (h' & H' & ->).
    destruct ((56320 <=? m) && (m <=? 57343))%Z eqn:C; [|discriminate]. intros Q. injection Q as <- <-. right. exists h, n, h', m.
    apply andb_prop in B, C. repeat split; auto; try lia. apply utf8_ok. lia.
  - intros Q. injection Q as <- <-. left. exists h, n. repeat split; auto; [|apply utf8_ok; lia].
    unfold surrogate. apply andb_false_iff in A, B. lia.
Qed.

Lemma spells_chars x t : spells x t -> forall n r, (String.length t < n)%nat -> chars n (t ++ String """" r) = Some (x, r).
Proof.
  induction 1 as [|c x t Hq Hb Hc S IH|e c x t Hs S IH|h n u x t Hh Hn Hu S IH|h n h' n' u x t Hh Hh' Hn Hn' Hu S IH]; intros k r L; (destruct k as [|k]; [cbn in L; lia|]).
  - reflexivity.
  - cbn [append chars]. apply Ascii.eqb_neq in Hq, Hb. rewrite Hq, Hb. destruct (Nat.ltb_spec (nat_of_ascii c) 32); [unfold code in Hc; lia|].
    rewrite IH by (cbn in L; lia). reflexivity.
  - cbn [append chars]. change (Ascii.eqb "\" """") with false. change (Ascii.eqb "\" "\") with true. cbv iota.
    assert (e <> "u"%char) as U by (intros ->; cbn in Hs; intuition discriminate). apply Ascii.eqb_neq in U. rewrite U. apply short_ok in Hs. rewrite Hs. cbv iota beta.
    rewrite IH by (cbn in L; lia). reflexivity.
  - rewrite !sapp_assoc. cbn [append chars]. change (Ascii.eqb "\" """") with false. change (Ascii.eqb "\" "\") with true. change (Ascii.eqb "u" "u") with true. cbv iota.
    rewrite (escape_code _ _ _ Hh Hn). rewrite IH by (rewrite !slen in L; cbn in L; lia).
    rewrite (encoded_one _ _ _ Hu (utf8_ok n ltac:(pose proof (hex4_range _ _ Hh); lia))). reflexivity.
  - rewrite !sapp_assoc. cbn [append chars]. change (Ascii.eqb "\" """") with false. change (Ascii.eqb "\" "\") with true. change (Ascii.eqb "u" "u") with true. cbv iota.
    pose proof (escape_pair h n h' n' (t ++ String """" r) Hh Hh' Hn Hn') as P. cbn [append] in P. rewrite P.
    rewrite IH by (rewrite !slen in L; cbn [append String.length] in L; rewrite ?slen in L; cbn in L; lia).
    rewrite (encoded_one _ _ _ Hu (utf8_ok ((n - 55296) * 1024 + (n' - 56320) + 65536)%Z ltac:(lia))). reflexivity.
Qed.
Lemma chars_spells n : forall s x r, chars n s = Some (x, r) -> exists t, s = t ++ String """" r /\ spells x t.
Proof.
  induction n as [|n IH]; intros [|c s] x r; try discriminate. cbn [chars].
  destruct (Ascii.eqb_spec c """"); [intros Q; injection Q as <- <-; subst; exists ""; split; [reflexivity|constructor]|].
  destruct (Ascii.eqb_spec c "\").
  - destruct s as [|ch s]; [discriminate|]. destruct (Ascii.eqb_spec ch "u").
    + destruct (unicode_escape s) as [[u r2]|] eqn:U; [|discriminate]. destruct (chars n r2) as [[y r3]|] eqn:C; [|discriminate]. intros Q. injection Q as <- <-. subst.
      apply IH in C as (t & -> & S). apply escape_inv in U as [(h & k & H & N & En & ->)|(h & k & h' & k' & H & H' & N & N' & En & ->)].
      * exists ("\u" ++ h ++ t). split; [cbn; now rewrite !sapp_assoc|]. eapply sp_code; eauto.
      * exists ("\u" ++ h ++ "\u" ++ h' ++ t). split; [cbn; rewrite !sapp_assoc; cbn; now rewrite sapp_assoc|]. eapply sp_pair; eauto.
    + destruct (short_escape ch) as [d|] eqn:Sh; [|discriminate]. destruct (chars n s) as [[y r3]|] eqn:C; [|discriminate]. intros Q. injection Q as <- <-. subst.
      apply IH in C as (t & -> & S). exists ("\" ++ String ch t). split; [reflexivity|]. apply sp_short; [now apply short_ok|exact S].
  - destruct (Nat.ltb_spec (nat_of_ascii c) 32); [discriminate|]. destruct (chars n s) as [[y r1]|] eqn:C; [|discriminate]. intros Q. injection Q as <- <-.
    apply IH in C as (t & -> & S). exists (String c t). split; [reflexivity|]. constructor; auto. unfold code. lia.
Qed.

(** ** Numbers *)
Lemma digit_ok c : is_digit c = true <-> digit c.
Proof. unfold is_digit, digit, code. rewrite andb_true_iff, !Nat.leb_le. lia. Qed.
(** the text does not go on with a number *)
Definition stops (r : string) : Prop :=
  r = "" \/ exists c r', r = String c r' /\ In c [" "%char; "009"%char; "010"%char; "013"%char; ","%char; "]"%char; "}"%char].
Definition no_digit (r : string) : Prop := r = "" \/ exists c r', r = String c r' /\ is_digit c = false.
Lemma digits_app l r : Forall digit l -> no_digit r -> digits (string_of_list_ascii l ++ r) = (l, r).
Proof.
  induction 1 as [|c l H F IH]; intros N.
  - cbn [string_of_list_ascii append]. destruct N as [->|(c & r' & -> & N)]; [reflexivity|]. cbn. now rewrite N.
  - cbn [string_of_list_ascii append digits]. apply digit_ok in H. rewrite H, (IH N). reflexivity.
Qed.
Lemma digits_inv s l r : digits s = (l, r) -> s = string_of_list_ascii l ++ r /\ Forall digit l /\ no_digit r.
Proof.
  revert l r. induction s as [|c s IH]; intros l r H; cbn in H.
  - injection H as <- <-. repeat split; [constructor|now left].
  - destruct (is_digit c) eqn:D.
    + destruct (digits s) as [l' r'] eqn:E. injection H as <- <-. destruct (IH _ _ eq_refl) as (-> & F & N). repeat split; auto. constructor; auto. now apply digit_ok.
    + injection H as <- <-. repeat split; [constructor|right; eauto].
Qed.
Definition minus_exp (m : string) : bool := existsb (String.eqb m) ["e-"; "E-"].
(** what the reader makes of a number *)
Definition reads (f : figure_text) : option json :=
  number_value (ft_minus f) (ft_whole f) (ft_part f) (match ft_exp f with Some (m, l) => Some (minus_exp m, l) | None => None end).
Definition read_number (t : string) (j : json) : Prop := exists f, well_formed f /\ t = figure_string f /\ reads f = Some j.
Lemma whole_shape l : whole_ok l = true <-> (List.length l = 1%nat \/ exists c k, l = c :: k /\ c <> "0"%char).
Proof.
  destruct l as [|c [|d l]]; cbn [whole_ok].
  - split; [discriminate|intros [H|(c & k & H & _)]; discriminate].
  - split; [left; reflexivity|reflexivity].
  - rewrite negb_true_iff, Ascii.eqb_neq. split; [right; eauto|]. intros [H|(c' & k & H & N)]; [discriminate|]. injection H as <- <-. exact N.
Qed.
Lemma no_digit_head c r : is_digit c = false -> no_digit (String c r).
Proof. right. eauto. Qed.
Lemma stops_head r : stops r -> r = "" \/ exists c r', r = String c r' /\ is_digit c = false /\ Ascii.eqb c "." = false /\ (Ascii.eqb c "e" || Ascii.eqb c "E") = false.
Proof.
  intros [->|(c & r' & -> & H)]; [now left|right]. exists c, r'. split; [reflexivity|]. cbn [In] in H.
  repeat (destruct H as [<-|H]; [repeat split|]). contradiction.
Qed.
Lemma stops_no_digit r : stops r -> no_digit r.
Proof. intros S. destruct (stops_head _ S) as [->|(c & r' & -> & H & _)]; [now left|right; eauto]. Qed.
Lemma exponent_app (x : option (string * list ascii)) r : stops r -> match x with Some (m, l) => In m ["e"; "E"; "e+"; "E+"; "e-"; "E-"] /\ Forall digit l /\ l <> [] | None => True end ->
  exponent (match x with Some (m, l) => m ++ string_of_list_ascii l | None => "" end ++ r) = Some (match x with Some (m, l) => Some (minus_exp m, l) | None => None end, r).
Proof.
  intros S. destruct x as [[m l]|].
  - intros (M & F & N). assert (D := digits_app l r F (stops_no_digit _ S)). destruct l as [|c l]; [contradiction|].
    assert (Hc : digit c) by now inversion F. assert (c <> "-"%char /\ c <> "+"%char) as [N1 N2] by (split; intros ->; unfold digit, code in Hc; cbn in Hc; lia).
    apply Ascii.eqb_neq in N1, N2. cbn [In] in M. rewrite sapp_assoc.
    repeat (destruct M as [<-|M]; [cbn [append exponent string_of_list_ascii]; cbn [append string_of_list_ascii] in D;
      repeat match goal with |- context [Ascii.eqb (Ascii ?a ?b ?c ?d ?e ?f ?g ?h) ?y] => let v := eval compute in (Ascii.eqb (Ascii a b c d e f g h) y) in change (Ascii.eqb (Ascii a b c d e f g h) y) with v end;
      cbn [orb]; cbv iota; rewrite ?N1, ?N2, D; reflexivity|]). contradiction.
  - intros _. cbn [append]. destruct (stops_head _ S) as [->|(c & r' & -> & _ & _ & H)]; [reflexivity|]. cbn [exponent]. now rewrite H.
Qed.
Lemma exponent_inv s x r : exponent s = Some (x, r) -> exists y : option (string * list ascii), x = match y with Some (m, l) => Some (minus_exp m, l) | None => None end /\
  s = match y with Some (m, l) => m ++ string_of_list_ascii l | None => "" end ++ r /\
  match y with Some (m, l) => In m ["e"; "E"; "e+"; "E+"; "e-"; "E-"] /\ Forall digit l /\ l <> [] | None => True end.
Proof.
  destruct s as [|c s]; cbn [exponent]; [intros Q; injection Q as <- <-; now exists None|].
  destruct (Ascii.eqb c "e" || Ascii.eqb c "E") eqn:Hc; [|intros Q; injection Q as <- <-; now exists None].
  assert (G : forall ne m1 s1, s = m1 ++ s1 -> In (String c m1) ["e"; "E"; "e+"; "E+"; "e-"; "E-"] -> minus_exp (String c m1) = ne ->
    (match digits s1 with ([], _) => None | (l, r') => Some (Some (ne, l), r') end) = Some (x, r) ->
    exists y : option (string * list ascii), x = match y with Some (m, l) => Some (minus_exp m, l) | None => None end /\
      String c s = match y with Some (m, l) => m ++ string_of_list_ascii l | None => "" end ++ r /\
      match y with Some (m, l) => In m ["e"; "E"; "e+"; "E+"; "e-"; "E-"] /\ Forall digit l /\ l <> [] | None => True end).
  { intros ne m1 s1 -> I M Q. destruct (digits s1) as [[|d l] r'] eqn:D; [discriminate|]. injection Q as <- <-. apply digits_inv in D as (-> & F & _).
    exists (Some (String c m1, d :: l)). rewrite M. split; [reflexivity|]. split; [now rewrite sapp_assoc|]. repeat split; auto. discriminate. }
  apply orb_true_iff in Hc. rewrite !Ascii.eqb_eq in Hc.
  destruct s as [|d s].
  - intros Q. apply (G false "" "" eq_refl) in Q; [exact Q| |]; destruct Hc as [->| ->]; cbn; tauto.
  - destruct (Ascii.eqb_spec d "-"); [subst d|destruct (Ascii.eqb_spec d "+"); [subst d|]]; intros Q.
    + apply (G true "-" s eq_refl) in Q; [exact Q| |]; destruct Hc as [->| ->]; cbn; tauto.
    + apply (G false "+" s eq_refl) in Q; [exact Q| |]; destruct Hc as [->| ->]; cbn; tauto.
    + apply (G false "" (String d s) eq_refl) in Q; [exact Q| |]; destruct Hc as [->| ->]; cbn; tauto.
Qed.
Lemma minus_app (b : bool) l r : Forall digit l -> l <> [] -> minus ((if b then "-" else "") ++ string_of_list_ascii l ++ r) = (b, string_of_list_ascii l ++ r).
Proof.
  intros F N. destruct b; [reflexivity|]. destruct l as [|c l]; [contradiction|]. assert (Hc : digit c) by now inversion F.
  cbn [append string_of_list_ascii minus]. assert (c <> "-"%char) as N1 by (intros ->; unfold digit, code in Hc; cbn in Hc; lia). apply Ascii.eqb_neq in N1. now rewrite N1.
Qed.
Lemma exp_head (x : option (string * list ascii)) r : stops r -> match x with Some (m, l) => In m ["e"; "E"; "e+"; "E+"; "e-"; "E-"] /\ Forall digit l /\ l <> [] | None => True end ->
  let s := match x with Some (m, l) => m ++ string_of_list_ascii l | None => "" end ++ r in
  s = "" \/ exists c s', s = String c s' /\ is_digit c = false /\ Ascii.eqb c "." = false.
Proof.
  intros S H. destruct x as [[m l]|].
  - destruct H as (M & _). cbn [In] in M. repeat (destruct M as [<-|M]; [right; cbn [append]; eexists _, _; repeat split|]). contradiction.
  - cbn [append]. destruct (stops_head _ S) as [->|(c & r' & -> & H1 & H2 & _)]; [now left|right; eauto].
Qed.
Lemma figure_reads f j r : well_formed f -> reads f = Some j -> stops r -> number (figure_string f ++ r) = Some (j, r).
Proof.
  destruct f as [b w p x]. unfold well_formed, figure_string, reads. cbn [ft_minus ft_whole ft_part ft_exp]. intros (Fw & Sw & Hp & Hx) R S.
  apply whole_shape in Sw as Ow. unfold number. rewrite !sapp_assoc. rewrite minus_app; [|exact Fw|intros ->; discriminate].
  pose proof (exponent_app x r S Hx) as X. pose proof (exp_head x r S Hx) as Hd. cbv zeta in Hd. set (e := match x with Some (m, l) => m ++ string_of_list_ascii l | None => "" end ++ r) in *.
  assert (Ne : no_digit e) by (destruct Hd as [->|(c & s' & -> & H & _)]; [now left|right; eauto]).
  destruct p as [l|].
  - destruct Hp as (Fl & Nl). rewrite sapp_assoc. cbn [append]. fold e. rewrite digits_app by (auto using no_digit_head). rewrite Ow. cbn [fraction].
    change (Ascii.eqb "." ".") with true. cbv iota. rewrite digits_app by auto. destruct l as [|c l]; [contradiction|]. rewrite X, R. reflexivity.
  - cbn [append]. fold e. rewrite digits_app by auto. rewrite Ow.
    replace (fraction e) with (Some (@None (list ascii), e)) by (destruct Hd as [->|(c & s' & -> & _ & H)]; cbn; [reflexivity|now rewrite H]). rewrite X, R. reflexivity.
Qed.
Lemma number_inv s j r : number s = Some (j, r) -> exists f, well_formed f /\ reads f = Some j /\ s = figure_string f ++ r.
Proof.
  unfold number. destruct (minus s) as [b s1] eqn:M. destruct (digits s1) as [w s2] eqn:D. destruct (whole_ok w) eqn:W; [|discriminate].
  destruct (fraction s2) as [[p s3]|] eqn:F; [|discriminate]. destruct (exponent s3) as [[x s4]|] eqn:X; [|discriminate].
  destruct (number_value b w p x) eqn:V; [|discriminate]. intros Q. injection Q as -> ->.
  apply digits_inv in D as (-> & Dw & _). apply exponent_inv in X as (y & -> & -> & Hy). apply whole_shape in W.
  assert (Sm : s = (if b then "-" else "") ++ string_of_list_ascii w ++ s2).
  { destruct s as [|c s]; cbn [minus] in M; [injection M as <- <-; reflexivity|]. destruct (Ascii.eqb_spec c "-"); injection M as <- <-; subst; reflexivity. }
  assert (Sf : s2 = match p with Some l => "." ++ string_of_list_ascii l | None => "" end ++ (match y with Some (m, l) => m ++ string_of_list_ascii l | None => "" end ++ r) /\
    match p with Some l => Forall digit l /\ l <> [] | None => True end).
  { destruct s2 as [|c s2]; cbn [fraction] in F; [injection F as <- <-; split; [reflexivity|exact I]|].
    destruct (Ascii.eqb_spec c "."); [|injection F as <- <-; split; [reflexivity|exact I]]. subst c. destruct (digits s2) as [[|c l] r'] eqn:D; [discriminate|].
    injection F as <- <-. apply digits_inv in D as (-> & Fl & _). split; [reflexivity|]. split; [exact Fl|discriminate]. }
  destruct Sf as [-> Hp]. exists (mkFT b w p y). split; [|split].
  - unfold well_formed. cbn [ft_minus ft_whole ft_part ft_exp]. auto.
  - exact V.
  - rewrite Sm. unfold figure_string. cbn [ft_minus ft_whole ft_part ft_exp]. now rewrite !sapp_assoc.
Qed.
