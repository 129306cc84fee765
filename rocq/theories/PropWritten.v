(** C102: what is written as text is read back. *)
From Coq Require Import ZArith Reals Bool List String Ascii Lia Lra.
From Flocq Require Import Core BinarySingleNaN.
From Verif Require Import F64 Kurbo F64Facts Value Animated Schema Import Serde SerdeSpec SerdeFacts SerdeFacts3 SerdeProper JsonText TextSpec TextFacts TextRead TextNum TextWrite TrimFacts PropJsonText PropSerde.
Import ListNotations.
Local Open Scope string_scope.

(** ** What is said of the text *)
(** How many arrays and objects lie within each other. *)
Fixpoint depth (j : json) : nat :=
  match j with
  | JArr l => S (list_max (map depth l))
  | JObj fs => S (list_max (map (fun m => depth (snd m)) fs))
  | _ => 0
  end%nat.
(** A double is written as a number with a point or an exponent, of which it is the closest double. *)
Definition shows (show : f64 -> string) : Prop :=
  forall x, fin x -> exists f, well_formed f /\ show x = figure_string f /\ ~ integral f /\ closest (ft_minus f) (figure_value f) x.
(** A double is written with few digits. *)
Definition shown_short (show : f64 -> string) (x : f64) : Prop :=
  exists f, well_formed f /\ show x = figure_string f /\ ~ integral f /\ closest (ft_minus f) (figure_value f) x /\ short_number f.
(** The text of a double is read, as some double; as this double again. *)
Definition readable (show : f64 -> string) (x : f64) : Prop := exists y, read_text (show x) = Some (JFloat y).
Definition survives (show : f64 -> string) (x : f64) : Prop := read_text (show x) = Some (JFloat x).
(** All doubles of a value. *)
Inductive float_in (x : f64) : json -> Prop :=
| fi_here : float_in x (JFloat x)
| fi_arr j l : In j l -> float_in x j -> float_in x (JArr l)
| fi_obj k j fs : In (k, j) fs -> float_in x j -> float_in x (JObj fs).

(** The same value, but for doubles: each is what its text is read as. *)
Inductive again (show : f64 -> string) : json -> json -> Prop :=
| ag_null : again show JNull JNull
| ag_bool b : again show (JBool b) (JBool b)
| ag_int n : again show (JInt n) (JInt n)
| ag_float x y : read_text (show x) = Some (JFloat y) -> again show (JFloat x) (JFloat y)
| ag_str s : again show (JStr s) (JStr s)
| ag_arr l l' : Forall2 (again show) l l' -> again show (JArr l) (JArr l')
| ag_obj fs fs' : Forall2 (fun m m' => fst m = fst m' /\ again show (snd m) (snd m')) fs fs' -> again show (JObj fs) (JObj fs').

(** ** Integers *)
Lemma digit_char_ok n : (0 <= n < 10)%Z -> code (digit_char n) = (48 + n)%Z.
Proof. intros H. unfold digit_char. apply code_byte. lia. Qed.
Lemma decimal_ok k : forall n, (0 <= n < 10 ^ Z.of_nat (S k))%Z ->
  Forall digit (list_ascii_of_string (decimal k n)) /\ amount (list_ascii_of_string (decimal k n)) = n /\ whole_ok (list_ascii_of_string (decimal k n)) = true /\
  ((0 < n)%Z -> exists c r, decimal k n = String c r /\ c <> "0"%char).
Proof.
  assert (One : forall n, (0 <= n < 10)%Z -> Forall digit (list_ascii_of_string (String (digit_char n) "")) /\ amount (list_ascii_of_string (String (digit_char n) "")) = n /\
    whole_ok (list_ascii_of_string (String (digit_char n) "")) = true /\ ((0 < n)%Z -> exists c r, String (digit_char n) "" = String c r /\ c <> "0"%char)).
  { intros n Hn. pose proof (digit_char_ok n Hn) as C. cbn [list_ascii_of_string]. split; [constructor; [unfold digit; lia|constructor]|]. split; [unfold amount; cbn [fold_left]; rewrite C; lia|]. split; [reflexivity|].
    intros P. eexists _, _. split; [reflexivity|]. intros Q. rewrite Q in C. change (code "0") with 48%Z in C. lia. }
  induction k as [|k IH]; intros n Hn; cbn [decimal]; [apply One; change (10 ^ Z.of_nat 1)%Z with 10%Z in Hn; lia|].
  destruct (Z.ltb_spec n 10); [apply One; lia|]. rewrite Nat2Z.inj_succ, Z.pow_succ_r in Hn by lia.
  assert (H1 : (0 <= n / 10 < 10 ^ Z.of_nat (S k))%Z) by (split; [apply Z.div_pos; lia|apply Z.div_lt_upper_bound; lia]).
  pose proof (Z.mod_pos_bound n 10 ltac:(lia)) as Hm. destruct (IH _ H1) as (F & A & W & P). pose proof (Z.div_mod n 10 ltac:(lia)) as E.
  assert (H2 : (0 < n / 10)%Z) by (apply Z.div_str_pos; lia). destruct (P H2) as (c & r & Ec & Nc).
  assert (La : forall a b, list_ascii_of_string (a ++ b) = (list_ascii_of_string a ++ list_ascii_of_string b)%list) by (induction a as [|x a IHa]; intros b; [reflexivity|]; cbn; now rewrite IHa).
  destruct (One _ Hm) as (F1 & _). rewrite La. split; [apply Forall_app; auto|]. split; [|split].
  - unfold amount in *. rewrite fold_left_app, A. cbn [list_ascii_of_string fold_left]. rewrite digit_char_ok by exact Hm. lia.
  - rewrite Ec. cbn [list_ascii_of_string app whole_ok]. destruct (list_ascii_of_string r ++ _)%list eqn:Q; [reflexivity|]. apply negb_true_iff. now apply Ascii.eqb_neq.
  - intros _. rewrite Ec. cbn [append]. eauto.
Qed.
Lemma write_nat_ok n : (0 <= n)%Z -> Forall digit (list_ascii_of_string (write_nat n)) /\ amount (list_ascii_of_string (write_nat n)) = n /\ whole_ok (list_ascii_of_string (write_nat n)) = true.
Proof.
  intros H. unfold write_nat. assert (B : (0 <= n < 10 ^ Z.of_nat (S (Z.to_nat (Z.log2 n))))%Z).
  { split; [exact H|]. pose proof (Z.log2_nonneg n). rewrite Nat2Z.inj_succ, Z2Nat.id by lia. destruct (Z.eq_dec n 0) as [->|N]; [cbn; lia|]. destruct (Z.log2_spec n ltac:(lia)) as [_ U].
    apply Z.lt_le_trans with (1 := U). apply Z.pow_le_mono_l. lia. }
  destruct (decimal_ok _ n B) as (A1 & A2 & A3 & _). auto.
Qed.
Lemma write_int_ok n : (- 2 ^ 63 <= n < 2 ^ 64)%Z -> exact_number (write_int n) (JInt n).
Proof.
  intros H. unfold write_int. destruct (Z.ltb_spec n 0).
  - destruct (write_nat_ok (- n) ltac:(lia)) as (F & A & W). exists (mkFT true (list_ascii_of_string (write_nat (- n))) None None). split; [|split].
    + split; [exact F|]. split; [now apply whole_shape|]. split; exact I.
    + unfold figure_string. cbn [ft_minus ft_whole ft_part ft_exp append]. now rewrite string_of_list_ascii_of_string, !sapp_nil.
    + left. unfold integral, signed_digits, figure_digits, part_digits. cbn [ft_minus ft_whole ft_part ft_exp]. rewrite app_nil_r, A. repeat split; auto; try lia. f_equal. lia.
  - destruct (write_nat_ok n ltac:(lia)) as (F & A & W). exists (mkFT false (list_ascii_of_string (write_nat n)) None None). split; [|split].
    + split; [exact F|]. split; [now apply whole_shape|]. split; exact I.
    + unfold figure_string. cbn [ft_minus ft_whole ft_part ft_exp append]. now rewrite string_of_list_ascii_of_string, !sapp_nil.
    + left. unfold integral, signed_digits, figure_digits, part_digits. cbn [ft_minus ft_whole ft_part ft_exp]. rewrite app_nil_r, A. repeat split; auto; lia.
Qed.
(** ** Strings *)
Lemma hex_char_ok n : (0 <= n < 16)%Z -> hex (hex_char n) n.
Proof. intros H. unfold hex_char, hex. split; [exact H|]. destruct (Z.ltb_spec n 10); rewrite code_byte by lia; lia. Qed.
Lemma write_chars_ok s : spells s (write_chars s).
Proof.
  induction s as [|c s IH]; [constructor|]. cbn [write_chars]. unfold write_char.
  destruct (Ascii.eqb_spec c """"); [subst; apply (sp_short """" """"); [cbn; tauto|exact IH]|].
  destruct (Ascii.eqb_spec c "\"); [subst; apply (sp_short "\" "\"); [cbn; tauto|exact IH]|].
  destruct (Ascii.eqb_spec c "008"); [subst; apply (sp_short "b" "008"); [cbn; tauto|exact IH]|].
  destruct (Ascii.eqb_spec c "009"); [subst; apply (sp_short "t" "009"); [cbn; tauto|exact IH]|].
  destruct (Ascii.eqb_spec c "010"); [subst; apply (sp_short "n" "010"); [cbn; tauto|exact IH]|].
  destruct (Ascii.eqb_spec c "012"); [subst; apply (sp_short "f" "012"); [cbn; tauto|exact IH]|].
  destruct (Ascii.eqb_spec c "013"); [subst; apply (sp_short "r" "013"); [cbn; tauto|exact IH]|].
  destruct (Nat.ltb_spec (nat_of_ascii c) 32) as [L|L]; [|constructor; auto; unfold code; lia].
  change (Z.of_nat (nat_of_ascii c)) with (code c). assert (B : (0 <= code c < 32)%Z) by (unfold code; lia).
  pose proof (Z.mod_pos_bound (code c) 16 ltac:(lia)) as Hm. pose proof (Z.div_mod (code c) 16 ltac:(lia)) as E. assert (Hd : (0 <= code c / 16 < 16)%Z) by lia.
  apply (sp_code (String "0" (String "0" (String (hex_char (code c / 16)) (String (hex_char (code c mod 16)) "")))) (code c) (String c "")).
  - exists "0"%char, "0"%char, (hex_char (code c / 16)), (hex_char (code c mod 16)), 0%Z, 0%Z, (code c / 16)%Z, (code c mod 16)%Z.
    split; [reflexivity|]. split; [split; [lia|left; split; [reflexivity|lia]]|]. split; [split; [lia|left; split; [reflexivity|lia]]|].
    split; [now apply hex_char_ok|]. split; [now apply hex_char_ok|]. lia.
  - unfold surrogate. lia.
  - left. split; [lia|]. reflexivity.
  - exact IH.
Qed.
(** ** Values *)
(** numbers as they are written *)
Definition written (show : f64 -> string) (t : string) (j : json) : Prop :=
  match j with JInt n => (- 2 ^ 63 <= n < 2 ^ 64)%Z /\ t = write_int n | JFloat x => t = show x /\ exists y, read_number t (JFloat y) | _ => False end.
Lemma blank_empty : blank "". Proof. constructor. Qed.
Lemma commas_texts N d l (ts : list string) : Forall2 (fun j t => text_of N d j t) l ts -> l <> [] -> texts_of N d l (commas ts).
Proof.
  induction 1 as [|j t l ts H F IH]; [contradiction|]. intros _. destruct F as [|j' t' l' ts' H' F'].
  - cbn [commas]. change t with ("" ++ t). rewrite <- (sapp_nil t) at 1. apply (ts_one N d "" j t ""); auto using blank_empty.
  - change (commas (t :: t' :: ts')) with ("" ++ t ++ "" ++ "," ++ commas (t' :: ts')). apply ts_more; auto using blank_empty. apply IH. discriminate.
Qed.
Lemma commas_members N d (fs : list (string * json)) (ts : list string) : Forall2 (fun m t => text_of N d (snd m) t) fs ts -> fs <> [] ->
  members_of N d fs (commas (map (fun p => write_str (fst (fst p)) ++ ":" ++ snd p) (combine fs ts))).
Proof.
  induction 1 as [|[k j] t fs ts H F IH]; [contradiction|]. intros _. cbn [snd] in H. destruct F as [|m' t' fs' ts' H' F'].
  - cbn [combine map commas fst snd]. unfold write_str. repeat (rewrite ?sapp_assoc; cbn [append]). rewrite <- (sapp_nil t) at 1.
    apply (ms_one N d "" k (write_chars k) "" "" j t ""); auto using blank_empty, write_chars_ok.
  - change (combine ((k, j) :: m' :: fs') (t :: t' :: ts')) with (((k, j), t) :: combine (m' :: fs') (t' :: ts')).
    set (rest := combine (m' :: fs') (t' :: ts')) in *. assert (R : exists p r, rest = p :: r) by (unfold rest; cbn; eauto). destruct R as (p & r & R). rewrite R in *.
    cbn [map commas fst snd] in *. set (cs := match map _ r with [] => _ | _ => _ end) in *. unfold write_str at 1. repeat (rewrite ?sapp_assoc; cbn [append]).
    apply (ms_more N d "" k (write_chars k) "" "" j t "" (m' :: fs') cs); auto using blank_empty, write_chars_ok. apply IH. discriminate.
Qed.
Lemma list_max_in (l : list nat) x : In x l -> (x <= list_max l)%nat.
Proof. intros H. pose proof (proj1 (list_max_le l (list_max l)) (Nat.le_refl _)) as F. rewrite Forall_forall in F. auto. Qed.
Lemma write_is_text show : forall j d, json_ok j -> (forall x, float_in x j -> exists y, read_number (show x) (JFloat y)) -> (depth j <= d)%nat -> text_of (written show) d j (write_text show j).
Proof.
  induction j using json_ind'; intros d O R D; cbn [write_text].
  - constructor.
  - destruct b; constructor.
  - constructor. inversion O; subst. split; auto.
  - inversion O as [| | |x' Fx| | |]; subst. rewrite Fx. constructor. split; [reflexivity|]. apply R. constructor.
  - apply to_string, write_chars_ok.
  - inversion O; subst. cbn [depth] in D. destruct d as [|d]; [lia|]. destruct l as [|j l]; [apply (to_empty _ _ ""); constructor|]. apply to_array. apply commas_texts; [|discriminate].
    assert (G : forall x, In x (j :: l) -> text_of (written show) d x (write_text show x)).
    { intros x I. rewrite Forall_forall in *. apply H; auto; [intros y Fy; apply R; now apply (fi_arr _ x)|]. pose proof (list_max_in _ _ (in_map depth _ _ I)). lia. }
    clear -G. induction (j :: l) as [|a r IH]; [constructor|]. cbn [map]. constructor; [apply G; now left|]. apply IH. intros x I. apply G. now right.
  - inversion O; subst. cbn [depth] in D. destruct d as [|d]; [lia|]. destruct fs as [|m fs]; [apply (to_nothing _ _ ""); constructor|]. apply to_object.
    assert (G : forall x, In x (m :: fs) -> text_of (written show) d (snd x) (write_text show (snd x))).
    { intros x I. rewrite Forall_forall in *. apply H; auto; [intros y Fy; apply R; destruct x as [k v]; now apply (fi_obj _ k v)|].
      pose proof (list_max_in _ _ (in_map (fun m => depth (snd m)) _ _ I)). cbn beta in *. lia. }
    replace (map (fun m => write_str (fst m) ++ ":" ++ write_text show (snd m)) (m :: fs))
      with (map (fun p => write_str (fst (fst p)) ++ ":" ++ snd p) (combine (m :: fs) (map (fun x => write_text show (snd x)) (m :: fs)))).
    + apply commas_members; [|discriminate]. clear -G. induction (m :: fs) as [|a r IH]; [constructor|]. cbn [map]. constructor; [apply G; now left|]. apply IH. intros x I. apply G. now right.
    + clear. induction (m :: fs) as [|a r IH]; [reflexivity|]. cbn [map combine]. f_equal. exact IH.
Qed.

(** a number is read as a whole or not at all *)
Definition solid (s : string) : Prop := Forall (fun c => is_space c = false) (list_ascii_of_string s).
Lemma las_app a b : list_ascii_of_string (a ++ b) = (list_ascii_of_string a ++ list_ascii_of_string b)%list.
Proof. induction a as [|x a IH]; [reflexivity|]. cbn. now rewrite IH. Qed.
Lemma solid_app a b : solid (a ++ b) <-> solid a /\ solid b.
Proof. unfold solid. rewrite las_app. apply Forall_app. Qed.
Lemma solid_digits l : Forall digit l -> solid (string_of_list_ascii l).
Proof.
  unfold solid. rewrite list_ascii_of_string_of_list_ascii. apply Forall_impl. intros c H. destruct (is_space c) eqn:E; [|reflexivity]. apply space_in in E.
  unfold digit in H. cbn [In] in E. decompose [or] E; subst; try contradiction; destruct H as [H1 H2]; cbv in H1, H2; congruence.
Qed.
Lemma solid_figure f : well_formed f -> solid (figure_string f).
Proof.
  intros (A & _ & B & C). unfold figure_string. rewrite !solid_app. split; [destruct (ft_minus f); repeat constructor|]. split; [now apply solid_digits|]. split.
  - destruct (ft_part f); [|constructor]. rewrite solid_app. split; [repeat constructor|]. now apply solid_digits.
  - destruct (ft_exp f) as [[m l]|]; [|constructor]. rewrite solid_app. split; [|now apply solid_digits].
    destruct C as (C & _). cbn [In] in C. intuition subst; repeat constructor.
Qed.
Lemma solid_blank w : solid w -> blank w -> w = "".
Proof. intros S B. destruct w as [|c w]; [reflexivity|]. unfold solid, blank in *. cbn [list_ascii_of_string] in *. inversion S; subst. inversion B; subst. apply space_in in H3. congruence. Qed.
Lemma alone show x y : shows show -> fin x -> read_text (show x) = Some (JFloat y) <-> read_number (show x) (JFloat y).
Proof.
  intros S F. destruct (S x F) as (f & W & E & _). rewrite read_text_iff. split.
  - intros (w1 & t & w2 & B1 & T & B2 & Q). pose proof (solid_figure f W) as P. rewrite <- E, Q, !solid_app in P. destruct P as (P1 & _ & P2).
    apply solid_blank in P1; [|exact B1]. apply solid_blank in P2; [|exact B2]. subst w1 w2. rewrite sapp_nil in Q. cbn [append] in Q. rewrite Q. inversion T; subst; auto.
  - intros R. exists "", (show x), "". split; [constructor|]. split; [now constructor|]. split; [constructor|]. now rewrite sapp_nil.
Qed.
Lemma float_in_fin x j : json_ok j -> float_in x j -> fin x.
Proof.
  revert x. induction j using json_ind'; intros y O F; inversion F; subst; inversion O; subst; auto; rewrite Forall_forall in *.
  - eapply H; eauto.
  - match goal with I : In _ fs |- _ => apply (H _ I); auto; match goal with G : forall m, In m fs -> json_ok _ |- _ => apply (G _ I) end end.
Qed.
Lemma read_depth t j : read_number t j -> depth j = 0%nat.
Proof. intros R. apply read_fair in R as (f & _ & _ & [(_ & ->)|(_ & x & -> & _)]); reflexivity. Qed.
Lemma text_depth :
  (forall d j t, text_of read_number d j t -> (depth j <= d)%nat) /\
  (forall d l t, texts_of read_number d l t -> (list_max (map depth l) <= d)%nat) /\
  (forall d l t, members_of read_number d l t -> (list_max (map (fun m => depth (snd m)) l) <= d)%nat).
Proof.
  apply (texts_mut read_number (fun d j t _ => (depth j <= d)%nat) (fun d l t _ => (list_max (map depth l) <= d)%nat) (fun d l t _ => (list_max (map (fun m => depth (snd m)) l) <= d)%nat));
    intros; cbn [depth map snd] in *; unfold list_max in *; cbn [fold_right] in *; try lia. rewrite (read_depth _ _ n). lia.
Qed.
Lemma text_deeper N :
  (forall d j t, text_of N d j t -> forall e, (d <= e)%nat -> text_of N e j t) /\
  (forall d l t, texts_of N d l t -> forall e, (d <= e)%nat -> texts_of N e l t) /\
  (forall d l t, members_of N d l t -> forall e, (d <= e)%nat -> members_of N e l t).
Proof.
  apply (texts_mut N (fun d j t _ => forall e, (d <= e)%nat -> text_of N e j t) (fun d l t _ => forall e, (d <= e)%nat -> texts_of N e l t) (fun d l t _ => forall e, (d <= e)%nat -> members_of N e l t));
    intros; try (destruct e as [|e]; [lia|]); solve [constructor; solve [auto with arith | match goal with X : forall e, _ |- _ => apply X; lia end]].
Qed.
Lemma text_again show : shows show ->
  (forall d j t, text_of (written show) d j t -> json_ok j -> exists j', text_of read_number d j' t /\ again show j j') /\
  (forall d l t, texts_of (written show) d l t -> Forall json_ok l -> exists l', texts_of read_number d l' t /\ Forall2 (again show) l l') /\
  (forall d l t, members_of (written show) d l t -> Forall (fun m => json_ok (snd m)) l ->
     exists l', members_of read_number d l' t /\ Forall2 (fun m m' => fst m = fst m' /\ again show (snd m) (snd m')) l l').
Proof.
  intros S. apply (texts_mut (written show) (fun d j t _ => json_ok j -> exists j', text_of read_number d j' t /\ again show j j')
    (fun d l t _ => Forall json_ok l -> exists l', texts_of read_number d l' t /\ Forall2 (again show) l l')
    (fun d l t _ => Forall (fun m => json_ok (snd m)) l -> exists l', members_of read_number d l' t /\ Forall2 (fun m m' => fst m = fst m' /\ again show (snd m) (snd m')) l l')).
  - intros d _. exists JNull. split; constructor.
  - intros d _. exists (JBool true). split; constructor.
  - intros d _. exists (JBool false). split; constructor.
  - intros d j t W O. destruct j as [|b|n|x|s|l|fs]; try contradiction.
    + destruct W as [B ->]. exists (JInt n). split; [constructor; apply read_exact, write_int_ok, B|constructor].
    + destruct W as (-> & y & R). exists (JFloat y). inversion O; subst. split; [now constructor|]. constructor. now apply alone.
  - intros d x t H _. exists (JStr x). split; [now apply to_string|constructor].
  - intros d w B _. exists (JArr []). split; [now apply to_empty|constructor; constructor].
  - intros d l t H IH O. inversion O; subst. destruct (IH H1) as (l' & T & A). exists (JArr l'). split; [now apply to_array|now constructor].
  - intros d w B _. exists (JObj []). split; [now apply to_nothing|constructor; constructor].
  - intros d l t H IH O. inversion O; subst. destruct (IH H1) as (l' & T & A). exists (JObj l'). split; [now apply to_object|now constructor].
  - intros d w1 j t w2 B1 H IH B2 O. inversion O; subst. destruct (IH H2) as (j' & T & A). exists [j']. split; [now apply ts_one|auto].
  - intros d w1 j t w2 l r B1 H IH B2 H0 IH0 O. inversion O; subst. destruct (IH H3) as (j' & T & A). destruct (IH0 H4) as (l' & T' & A'). exists (j' :: l'). split; [now apply ts_more|auto].
  - intros d w1 k kt w2 w3 j t w4 B1 K B2 B3 H IH B4 O. inversion O; subst. destruct (IH H2) as (j' & T & A). exists [(k, j')]. split; [now apply ms_one|auto].
  - intros d w1 k kt w2 w3 j t w4 l r B1 K B2 B3 H IH B4 H0 IH0 O. inversion O; subst. destruct (IH H3) as (j' & T & A). destruct (IH0 H4) as (l' & T' & A').
    exists ((k, j') :: l'). split; [now apply ms_more|auto].
Qed.
Lemma again_depth show : forall j j', again show j j' -> depth j' = depth j.
Proof.
  induction j using json_ind'; intros j' A; inversion A; subst; try reflexivity; cbn [depth]; do 2 f_equal.
  - clear A. match goal with F : Forall2 _ _ _ |- _ => induction F as [|a b l l' X F IH]; [reflexivity|] end. inversion H; subst. cbn [map]. f_equal; auto.
  - clear A. match goal with F : Forall2 _ _ _ |- _ => induction F as [|a b l l' [_ X] F IH]; [reflexivity|] end. inversion H; subst. cbn [map]. f_equal; auto.
Qed.
Lemma forall2_self {A} (P : A -> A -> Prop) l : Forall2 P l l -> forall x, In x l -> P x x.
Proof. induction l as [|a l IH]; intros F x I; [contradiction|]. inversion F; subst. destruct I as [->|I]; auto. Qed.
Lemma self_forall2 {A} (P : A -> A -> Prop) l : (forall x, In x l -> P x x) -> Forall2 P l l.
Proof. induction l as [|a l IH]; intros G; constructor; [apply G; now left|apply IH; intros x I; apply G; now right]. Qed.
Lemma again_to show j : again show j j -> forall x, float_in x j -> survives show x.
Proof.
  induction j using json_ind'; intros A y F; inversion F; subst; inversion A; subst; auto; rewrite Forall_forall in *.
  - match goal with I : In ?a l, G : Forall2 _ l l |- _ => apply (H a I); auto; apply (forall2_self _ _ G a I) end.
  - match goal with I : In ?a fs, G : Forall2 _ fs fs |- _ => apply (H a I); auto; apply (forall2_self _ _ G a I) end.
Qed.
Lemma again_of show j : (forall x, float_in x j -> survives show x) -> again show j j.
Proof.
  induction j using json_ind'; intros A; [apply ag_null|apply ag_bool|apply ag_int|apply ag_float, A; constructor|apply ag_str|apply ag_arr|apply ag_obj]; rewrite Forall_forall in *; apply self_forall2.
  - intros a I. apply (H a I). intros x F. apply A. now apply (fi_arr _ a).
  - intros [k a] I. split; [reflexivity|]. apply (H _ I). intros x F. apply A. now apply (fi_obj _ k a).
Qed.
Lemma again_self show j : again show j j <-> forall x, float_in x j -> survives show x.
Proof. split; [apply again_to|apply again_of]. Qed.

(** Up to 127 levels, what is written is read back as the same value but for
    its doubles, which are what their texts are read as. *)
Theorem C102_back : forall show j, shows show -> json_ok j -> (depth j <= 127)%nat -> (forall x, float_in x j -> readable show x) ->
  exists j', read_text (write_text show j) = Some j' /\ again show j j'.
Proof.
  intros show j S O D R. assert (R' : forall x, float_in x j -> exists y, read_number (show x) (JFloat y)).
  { intros x F. destruct (R x F) as (y & Q). exists y. apply alone; auto. eapply float_in_fin; eauto. }
  destruct (proj1 (text_again show S) 127%nat j _ (write_is_text show j 127 O R' D) O) as (j' & T & A). exists j'. split; [|exact A].
  apply read_text_iff. exists "", (write_text show j), "". split; [constructor|]. split; [exact T|]. split; [constructor|]. now rewrite sapp_nil.
Qed.
(** It is read back as it was exactly if there are at most 127 levels and every double survives. *)
Theorem C102_exact : forall show j, shows show -> json_ok j -> (forall x, float_in x j -> readable show x) ->
  (read_text (write_text show j) = Some j <-> (depth j <= 127)%nat /\ forall x, float_in x j -> survives show x).
Proof.
  intros show j S O R. assert (R' : forall x, float_in x j -> exists y, read_number (show x) (JFloat y)).
  { intros x F. destruct (R x F) as (y & Q). exists y. apply alone; auto. eapply float_in_fin; eauto. }
  split.
  - intros Q. apply read_text_iff in Q as (w1 & t & w2 & B1 & T & B2 & E). set (D := Nat.max 127 (depth j)).
    destruct (proj1 (text_again show S) D j _ (write_is_text show j D O R' (Nat.le_max_r _ _)) O) as (j' & T' & A).
    pose proof (proj1 (text_deeper read_number) _ _ _ T D (Nat.le_max_l _ _)) as T2. set (n := (2 * String.length (write_text show j) + 2)%nat).
    assert (St : stops w2) by (rewrite <- (sapp_nil w2); apply blank_stops; [exact B2|left; reflexivity]).
    assert (V : value n (Datatypes.S D) (write_text show j) = Some (j, w2)).
    { rewrite E, value_blank by exact B1. apply (proj1 reads_all); auto. unfold n. rewrite E, !slen. lia. }
    assert (V' : value n (Datatypes.S D) (write_text show j) = Some (j', "")).
    { rewrite <- (sapp_nil (write_text show j)) at 1. apply (proj1 reads_all); [exact T'|unfold n; lia|left; reflexivity]. }
    rewrite V in V'. assert (Ej : j = j') by congruence. subst j'. split; [now apply (proj1 text_depth) in T|]. now apply again_self.
  - intros (D & Sv). destruct (C102_back show j S O D R) as (j' & Q & A). rewrite Q. f_equal. symmetry.
    assert (A2 : again show j j) by now apply again_self. clear -A A2. revert j' A. revert A2.
    induction j using json_ind'; intros A2 j' A; inversion A; subst; auto; inversion A2; subst; try congruence; f_equal.
    + match goal with F : Forall2 _ l ?l', G : Forall2 _ l l |- l = ?l' => clear A A2; revert G; induction F as [|a b m m' X F IH]; intros G; [reflexivity|]; inversion H; subst; inversion G; subst; f_equal; auto end.
    + match goal with F : Forall2 _ fs ?l', G : Forall2 _ fs fs |- fs = ?l' => clear A A2; revert G; induction F as [|[k a] [k' b] m m' [X Y] F IH]; intros G; [reflexivity|]; inversion H; subst; inversion G as [|? ? ? ? [_ Z] G']; subst; cbn [fst snd] in *; subst k'; f_equal; [f_equal; auto|auto] end.
Qed.
(** Doubles that are written with few digits survive. *)
Theorem C102_short : forall show x, shown_short show x -> survives show x.
Proof.
  intros show x (f & W & E & I & C & Sh). unfold survives. apply read_text_iff. exists "", (show x), "". split; [constructor|]. split; [|split; [constructor|now rewrite sapp_nil]]. constructor.
  apply read_exact. exists f. split; [exact W|]. split; [exact E|]. right. eauto.
Qed.
(** With more levels the text cannot be read at all. *)
Theorem C102_deep : forall show j, shows show -> json_ok j -> (forall x, float_in x j -> readable show x) -> (127 < depth j)%nat -> read_text (write_text show j) = None.
Proof.
  intros show j S O R D. assert (R' : forall x, float_in x j -> exists y, read_number (show x) (JFloat y)).
  { intros x F. destruct (R x F) as (y & Q). exists y. apply alone; auto. eapply float_in_fin; eauto. }
  destruct (read_text (write_text show j)) as [k|] eqn:Q; [exfalso|reflexivity]. apply read_text_iff in Q as (w1 & t & w2 & B1 & T & B2 & E).
  destruct (proj1 (text_again show S) (depth j) j _ (write_is_text show j (depth j) O R' (Nat.le_refl _)) O) as (j' & T' & A).
  pose proof (proj1 (text_deeper read_number) _ _ _ T (depth j) ltac:(lia)) as T2. set (n := (2 * String.length (write_text show j) + 2)%nat).
  assert (St : stops w2) by (rewrite <- (sapp_nil w2); apply blank_stops; [exact B2|left; reflexivity]).
  assert (V : value n (Datatypes.S (depth j)) (write_text show j) = Some (k, w2)).
  { rewrite E, value_blank by exact B1. apply (proj1 reads_all); auto. unfold n. rewrite E, !slen. lia. }
  assert (V' : value n (Datatypes.S (depth j)) (write_text show j) = Some (j', "")).
  { rewrite <- (sapp_nil (write_text show j)) at 1. apply (proj1 reads_all); [exact T'|unfold n; lia|left; reflexivity]. }
  rewrite V in V'. assert (Ej : k = j') by congruence. subst j'. apply again_depth in A. apply (proj1 text_depth) in T. lia.
Qed.
Lemma ok_distinct j : json_ok j -> distinct_names j.
Proof.
  induction j using json_ind'; intros O; inversion O; subst; constructor; auto; rewrite Forall_forall in *; auto. 
Qed.
(** A document that was read, written with [Display] and read again is the same composition. *)
Theorem C102_document : forall E show j a, shows show -> json_ok j -> de_animation j = Some a -> images_sized a ->
  (depth (ser_animation a) <= 127)%nat -> (forall x, float_in x (ser_animation a) -> survives show x) ->
  from_str E (display show a) = from_json E j.
Proof.
  intros E show j a S O H I D F. pose proof (written_proper j a O H) as P. unfold from_str, display.
  assert (R : forall x, float_in x (ser_animation a) -> readable show x) by (intros x X; exists x; exact (F x X)).
  rewrite (proj2 (C102_exact show _ S P R) (conj D F)). rewrite no_duplicate, settle_same by now apply ok_distinct.
  unfold from_json. now rewrite (C48_document_partial j a O H I), H.
Qed.
(** What is written of a document that was read is proper JSON: integers of 64
    bits, finite numbers, and no name twice in an object. *)
Theorem C102_proper : forall j a, json_ok j -> de_animation j = Some a -> json_ok (ser_animation a).
Proof. exact written_proper. Qed.
(** No name is written twice in an object. *)
Theorem C102_names : forall j a, json_ok j -> de_animation j = Some a -> distinct_names (ser_animation a).
Proof. intros j a O H. now apply ok_distinct, (written_proper j). Qed.

(** ** A way to write doubles *)
Definition plain_show (x : f64) : string :=
  match x with
  | B754_finite s m e _ => (if s then "-" else "") ++ if (0 <=? e)%Z then write_nat (Zpos m * 2 ^ e) ++ ".0" else write_nat (Zpos m * 5 ^ (- e)) ++ "e-" ++ write_nat (- e)
  | B754_zero s => (if s then "-" else "") ++ "0.0"
  | _ => ""
  end.
Lemma plain_shows : shows plain_show.
Proof.
  intros x F. assert (G : round radix2 (FLT_exp (-1074) 53) ZnearestE (B2R x) = B2R x).
  { apply round_generic; [typeclasses eauto|]. apply (generic_format_B2R 53 1024). }
  assert (K : forall b v, v = B2R x -> Bsign x = b -> closest b v x) by (intros b v -> <-; split; [exact F|]; split; [now rewrite G|reflexivity]).
  destruct x as [s| | |s m e H]; try discriminate.
  - exists (mkFT s ["0"%char] (Some ["0"%char]) None). split; [|split; [|split]].
    + repeat split; try discriminate; [repeat constructor; unfold digit, code; cbn; lia|left; reflexivity|repeat constructor; unfold digit, code; cbn; lia].
    + unfold figure_string. cbn. destruct s; reflexivity.
    + intros (Q & _). discriminate.
    + apply K; [|reflexivity]. unfold figure_value. change (figure_digits _) with 0%Z. cbn [B2R]. lra.
  - cbn [plain_show]. destruct (Z.leb_spec 0 e) as [L|L].
    + destruct (write_nat_ok (Zpos m * 2 ^ e) ltac:(lia)) as (D & A & W).
      exists (mkFT s (list_ascii_of_string (write_nat (Zpos m * 2 ^ e))) (Some ["0"%char]) None). split; [|split; [|split]].
      * split; [exact D|]. split; [now apply whole_shape|]. split; [|exact I]. split; [repeat constructor; unfold digit, code; cbn; lia|discriminate].
      * unfold figure_string. cbn [ft_minus ft_whole ft_part ft_exp]. rewrite string_of_list_ascii_of_string. destruct s; reflexivity.
      * intros (Q & _). discriminate.
      * apply K; [|reflexivity]. unfold figure_value, figure_digits, part_digits, ten_exp, exp_of. cbn [ft_minus ft_whole ft_part ft_exp part_digits List.length].
        unfold amount in *. rewrite fold_left_app, A. cbn [fold_left]. change (code "0" - 48)%Z with 0%Z. rewrite Z.add_0_r, mult_IZR. change (0 - Z.of_nat 1)%Z with (-1)%Z.
        cbn [B2R]. unfold F2R. cbn [Fnum Fexp]. rewrite <- IZR_Zpower by lia. change (radix_val radix2) with 2%Z. rewrite mult_IZR. rewrite power_ten. change (0 <=? -1)%Z with false. change (10 ^ - -1)%Z with 10%Z. cbv iota.
        destruct s; cbn [cond_Zopp]; [change (Zneg m) with (- Zpos m)%Z; rewrite opp_IZR|]; field.
    + destruct (write_nat_ok (Zpos m * 5 ^ (- e)) ltac:(lia)) as (D & A & W). destruct (write_nat_ok (- e) ltac:(lia)) as (D2 & A2 & W2).
      exists (mkFT s (list_ascii_of_string (write_nat (Zpos m * 5 ^ (- e)))) None (Some ("e-", list_ascii_of_string (write_nat (- e))))). split; [|split; [|split]].
      * split; [exact D|]. split; [now apply whole_shape|]. split; [exact I|]. split; [cbn; tauto|]. split; [exact D2|]. intros Q. rewrite Q in W2. discriminate.
      * unfold figure_string. cbn [ft_minus ft_whole ft_part ft_exp]. rewrite !string_of_list_ascii_of_string. destruct s; reflexivity.
      * intros (_ & Q & _). discriminate.
      * apply K; [|reflexivity]. unfold figure_value, figure_digits, part_digits, ten_exp, exp_of. cbn [ft_minus ft_whole ft_part ft_exp part_digits List.length].
        rewrite app_nil_r, A, A2. change (existsb (String.eqb "e-") ["e-"; "E-"]) with true. cbv iota. rewrite Z.opp_involutive, Z.sub_0_r, power_ten.
        replace (0 <=? e)%Z with false by (symmetry; apply Z.leb_gt; exact L). replace 10%Z with (5 * 2)%Z by reflexivity. rewrite Z.pow_mul_l, !mult_IZR. cbn [B2R]. unfold F2R. cbn [Fnum Fexp].
        replace (bpow radix2 e) with (/ IZR (2 ^ (- e)))%R by (change 2%Z with (radix_val radix2); rewrite IZR_Zpower, bpow_opp by lia; apply Rinv_inv).
        assert (N2 : IZR (2 ^ (- e)) <> 0%R) by (apply IZR_neq; pose proof (Z.pow_pos_nonneg 2 (- e)); lia). assert (N5 : IZR (5 ^ (- e)) <> 0%R) by (apply IZR_neq; pose proof (Z.pow_pos_nonneg 5 (- e)); lia).
        destruct s; cbn [cond_Zopp]; [change (Zneg m) with (- Zpos m)%Z; rewrite opp_IZR|]; field; auto.
Qed.

(** ** Two documents that are not read back *)
(** a document without layers, of which all doubles are [x] *)
Definition empty_doc (x : f64) (more : list (string * json)) : json :=
  JObj (("fr", JFloat x) :: ("ip", JFloat x) :: ("op", JFloat x) :: ("w", JInt 4) :: ("h", JInt 3) :: ("layers", JArr []) :: more)%list.
Fixpoint nested (n : nat) : json := match n with O => JNull | S n => JArr [nested n] end.
Lemma nested_ok n : json_ok (nested n) /\ depth (nested n) = n /\ forall x, ~ float_in x (nested n).
Proof.
  induction n as [|n (A & B & C)]; cbn [nested].
  - split; [constructor|]. split; [reflexivity|]. intros x F. inversion F.
  - split; [constructor; auto|]. split; [cbn [depth map]; rewrite B; unfold list_max; cbn [fold_right]; now rewrite Nat.max_0_r|].
    intros x F. inversion F as [|j l I F' |]; subst. destruct I as [<-|[]]. now apply (C x).
Qed.
Definition empty_animation (x : f64) (m : option json) : animation :=
  mkAnimation (mkVisualObject None None) [] None None x x x 4 3 None None None None m.
Lemma empty_read x m : m <> Some JNull -> de_animation (empty_doc x (match m with Some v => [("metadata", v)] | None => [] end)) = Some (empty_animation x m).
Proof. intros N. destruct m as [v|]; [|reflexivity]. destruct v; try reflexivity. congruence. Qed.
Lemma empty_written x m : ser_animation (empty_animation x m) = JObj (("layers", JArr []) :: ("fr", ser_f64 x) :: ("ip", ser_f64 x) :: ("op", ser_f64 x) :: ("w", JInt 4) :: ("h", JInt 3) :: match m with Some v => [("metadata", v)] | None => [] end)%list.
Proof. destruct m; reflexivity. Qed.
Lemma empty_ok x m : fin x -> (forall v, m = Some v -> json_ok v) -> json_ok (empty_doc x (match m with Some v => [("metadata", v)] | None => [] end)).
Proof.
  intros F O. unfold empty_doc. assert (D : json_ok (JArr [])) by (constructor; constructor). destruct m as [v|]; (constructor; [repeat (constructor; [solve [cbn [snd]; first [exact D|apply O; reflexivity|constructor; first [exact F|lia]]]|]); constructor|
    cbn [map fst]; apply nodupb_ok; vm_compute; reflexivity]).
Qed.
Lemma ser_fin x : fin x -> ser_f64 x = JFloat x. Proof. intros F. unfold ser_f64. now rewrite F. Qed.
Lemma empty_floats x m y : fin x -> (forall v, m = Some v -> forall z, ~ float_in z v) -> float_in y (ser_animation (empty_animation x m)) -> y = x.
Proof.
  intros F N. rewrite empty_written, ser_fin by exact F. intros H. inversion H as [| |k j fs I G]; subst. cbn [In] in I.
  repeat match goal with X : _ \/ _ |- _ => destruct X as [X|X] end;
    try (injection I as <- <-; inversion G; subst; solve [reflexivity|contradiction]).
  destruct m as [v|]; [|contradiction]. destruct I as [I|[]]. injection I as <- <-. exfalso. now apply (N v eq_refl y).
Qed.
(** Too deep; one double that is read as its neighbour. *)
Theorem C102_refuted :
  (exists j a, json_ok j /\ de_animation j = Some a /\ images_sized a /\
     forall E show, shows show -> readable show f0 -> from_str E (display show a) = None) /\
  (exists x j a, closest false (figure_value near_one) x /\ json_ok j /\ de_animation j = Some a /\ images_sized a /\
     forall E show, shows show -> show x = "0.9728340843400927" ->
       exists c c', from_json E j = Some (Ok c) /\ from_str E (display show a) = Some (Ok c') /\ B2R (co_frame_rate c') <> B2R (co_frame_rate c)).
Proof.
  split.
  - destruct (nested_ok 127) as (A & B & C). set (v := nested 127) in *. exists (empty_doc f0 [("metadata", v)]), (empty_animation f0 (Some v)).
    assert (O : json_ok (empty_doc f0 [("metadata", v)])) by (apply (empty_ok f0 (Some v)); [reflexivity|intros w [= <-]; exact A]).
    assert (D : de_animation (empty_doc f0 [("metadata", v)]) = Some (empty_animation f0 (Some v))) by (apply (empty_read f0 (Some v)); discriminate).
    split; [exact O|]. split; [exact D|]. split; [exact I|]. intros E show S R. unfold from_str, display. rewrite C102_deep; [reflexivity|exact S| | |].
    + now apply (written_proper (empty_doc f0 [("metadata", v)])).
    + intros x F. apply empty_floats in F; [now subst|reflexivity|intros w [= <-]; exact C].
    + rewrite empty_written. cbn [depth map snd]. rewrite B. unfold list_max. cbn [fold_right]. clear. lia.
  - destruct C101_neighbour as (_ & _ & x & y & Cx & Ry & Ne). exists x, (empty_doc x []), (empty_animation x None). assert (F : fin x) by apply Cx.
    assert (O : json_ok (empty_doc x [])) by (apply (empty_ok x None); [exact F|discriminate]). assert (D : de_animation (empty_doc x []) = Some (empty_animation x None)) by reflexivity.
    split; [exact Cx|]. split; [exact O|]. split; [exact D|]. split; [exact I|]. intros E show S Sx.
    destruct (C102_back show (ser_animation (empty_animation x None)) S) as (j' & Rj & A).
    + now apply (written_proper (empty_doc x [])).
    + rewrite empty_written. cbn [depth map snd]. unfold list_max. cbn [fold_right]. rewrite ser_fin by exact F. cbn [depth]. lia.
    + intros z Z. apply empty_floats in Z; [|exact F|discriminate]. subst z. exists y. now rewrite Sx.
    + rewrite empty_written, ser_fin in A by exact F.
      assert (Ej : j' = JObj (("layers", JArr []) :: ("fr", JFloat y) :: ("ip", JFloat y) :: ("op", JFloat y) :: ("w", JInt 4) :: ("h", JInt 3) :: nil)%list).
      { rewrite <- Sx in Ry. inversion A as [| | | | | |fs fs' A0]; subst. clear A.
        repeat match goal with H : Forall2 _ (_ :: _) _ |- _ => inversion H; subst; clear H | H : Forall2 _ [] _ |- _ => inversion H; subst; clear H
          | m : (string * json)%type |- _ => destruct m; cbn [fst snd] in *
          | H : _ /\ _ |- _ => destruct H | H : again _ (JFloat x) _ |- _ => inversion H; subst; clear H | H : again _ (JInt _) _ |- _ => inversion H; subst; clear H
          | H : again _ (JArr _) _ |- _ => inversion H; subst; clear H end.
        subst. repeat f_equal; congruence. }
      subst j'. assert (C1 : forall z, exists c, conv_animation E (empty_animation z None) = Ok c /\ co_frame_rate c = z) by (intros z; eexists; split; reflexivity).
      destruct (C1 x) as (c & H1 & H2). destruct (C1 y) as (c' & H1' & H2'). exists c, c'. split; [unfold from_json; now rewrite D, H1|]. split; [|now rewrite H2, H2'].
      unfold from_str, display. rewrite Rj. rewrite <- H1'. reflexivity.
Qed.

(** ** A document that is read back *)
(** halves, with one digit after the point *)
Definition half_digit (h : Z) : ascii := if Z.odd h then "5" else "0".
Definition neat_show (x : f64) : string :=
  match x with
  | B754_finite s m e _ => if (e <? 0)%Z && (Zpos m mod 2 ^ (- e - 1) =? 0)%Z
      then let h := (Zpos m / 2 ^ (- e - 1))%Z in (if s then "-" else "") ++ write_nat (h / 2) ++ "." ++ String (half_digit h) "" else plain_show x
  | _ => plain_show x
  end.
Definition neat (x : f64) : bool :=
  match x with
  | B754_finite s m e _ => (e <? 0)%Z && (Zpos m mod 2 ^ (- e - 1) =? 0)%Z && (Zpos m / 2 ^ (- e - 1) <? 2 ^ 49)%Z
  | B754_zero _ => true
  | _ => false
  end.
Lemma neat_whole s m e H : (e < 0)%Z -> (Zpos m mod 2 ^ (- e - 1) = 0)%Z -> let x := B754_finite s m e H in let h := (Zpos m / 2 ^ (- e - 1))%Z in
  exists f, well_formed f /\ (if s then "-" else "") ++ write_nat (h / 2) ++ "." ++ String (half_digit h) "" = figure_string f /\ ~ integral f /\ closest (ft_minus f) (figure_value f) x /\
    figure_digits f = (h * 5)%Z /\ ten_exp f = (-1)%Z /\ exp_of f = 0%Z.
Proof.
  intros L M x h. pose proof (Z.pow_pos_nonneg 2 (- e - 1) ltac:(lia) ltac:(lia)) as P2. assert (En : (Zpos m = 2 ^ (- e - 1) * h)%Z) by (apply Z_div_exact_full_2; [lia|exact M]).
  assert (Hn : (0 <= h)%Z) by (apply Z.div_pos; lia). destruct (write_nat_ok (h / 2) ltac:(apply Z.div_pos; lia)) as (D & A & W).
  assert (Hd : digit (half_digit h) /\ (h / 2 * 10 + (code (half_digit h) - 48) = h * 5)%Z).
  { unfold half_digit. pose proof (Z.div_mod h 2 ltac:(lia)) as Q. rewrite Zmod_odd in Q. destruct (Z.odd h).
    - change (code "5") with 53%Z. split; [unfold digit; change (code "5") with 53%Z; lia|lia].
    - change (code "0") with 48%Z. split; [unfold digit; change (code "0") with 48%Z; lia|lia]. }
  destruct Hd as (Hd & Hv). set (f := mkFT s (list_ascii_of_string (write_nat (h / 2))) (Some [half_digit h]) None).
  assert (Dg : figure_digits f = (h * 5)%Z).
  { unfold figure_digits, part_digits, f. cbn [ft_whole ft_part]. unfold amount in *. rewrite fold_left_app, A. cbn [fold_left]. exact Hv. }
  exists f. split; [|split; [|split; [|split; [|split; [exact Dg|split; reflexivity]]]]].
  - split; [exact D|]. split; [now apply whole_shape|]. split; [|exact I]. split; [constructor; [exact Hd|constructor]|discriminate].
  - unfold figure_string, f. cbn [ft_minus ft_whole ft_part ft_exp]. rewrite string_of_list_ascii_of_string, sapp_nil. destruct s; reflexivity.
  - intros (Q & _). discriminate.
  - assert (V : figure_value f = B2R x).
    { unfold figure_value. rewrite Dg. change (ten_exp f) with (-1)%Z. change (ft_minus f) with s. rewrite power_ten. change (0 <=? -1)%Z with false.
      change (10 ^ - -1)%Z with 10%Z. cbv iota. rewrite mult_IZR. unfold x. cbn [B2R]. unfold F2R. cbn [Fnum Fexp].
      replace (bpow radix2 e) with (/ IZR (2 ^ (- e)))%R by (change 2%Z with (radix_val radix2); rewrite IZR_Zpower, bpow_opp by lia; apply Rinv_inv).
      replace (- e)%Z with (Z.succ (- e - 1)) by lia. rewrite Z.pow_succ_r, mult_IZR by lia.
      assert (N2 : IZR (2 ^ (- e - 1)) <> 0%R) by (apply IZR_neq; lia).
      destruct s; cbn [cond_Zopp]; [change (Zneg m) with (- Zpos m)%Z; rewrite opp_IZR|]; rewrite En, mult_IZR; field; auto. }
    split; [reflexivity|]. split; [|reflexivity]. rewrite V. symmetry. apply round_generic; [typeclasses eauto|]. apply (generic_format_B2R 53 1024).
Qed.
Lemma neat_shows : shows neat_show.
Proof.
  intros x F. destruct x as [s| | |s m e H]; try discriminate; [exact (plain_shows (B754_zero s) F)|]. cbn [neat_show].
  destruct ((e <? 0)%Z && (Zpos m mod 2 ^ (- e - 1) =? 0)%Z) eqn:Q; [|exact (plain_shows _ F)]. apply andb_prop in Q as [L M]. apply Z.ltb_lt in L. apply Z.eqb_eq in M.
  destruct (neat_whole s m e H L M) as (f & A & B & C & D & _). eauto.
Qed.
Lemma neat_survives x : neat x = true -> survives neat_show x.
Proof.
  intros N. apply C102_short. destruct x as [s| | |s m e H]; try discriminate.
  - exists (mkFT s ["0"%char] (Some ["0"%char]) None). split; [|split; [|split; [|split]]].
    + repeat split; try discriminate; [repeat constructor; unfold digit, code; cbn; lia|left; reflexivity|repeat constructor; unfold digit, code; cbn; lia].
    + unfold figure_string. cbn. destruct s; reflexivity.
    + intros (Q & _). discriminate.
    + split; [reflexivity|]. split; [|reflexivity]. unfold figure_value. change (figure_digits _) with 0%Z. rewrite Rmult_0_r, Rmult_0_l, round_0; [reflexivity|typeclasses eauto].
    + repeat split; cbn; lia.
  - cbn [neat] in N. apply andb_prop in N as [N B]. pose proof N as N'. apply andb_prop in N as [L M]. apply Z.ltb_lt in L. apply Z.eqb_eq in M. apply Z.ltb_lt in B.
    destruct (neat_whole s m e H L M) as (f & A & E & C & D & G1 & G2 & G3). exists f. split; [exact A|]. split; [cbn [neat_show]; now rewrite N'|]. split; [exact C|]. split; [exact D|].
    unfold short_number. rewrite G1, G2, G3. cbn. lia.
Qed.
(** the doubles of a value, as a list *)
Fixpoint doubles (j : json) : list f64 :=
  match j with JFloat x => [x] | JArr l => flat_map doubles l | JObj fs => flat_map (fun m => doubles (snd m)) fs | _ => [] end.
Lemma doubles_in x : forall j, float_in x j -> In x (doubles j).
Proof. induction 1; cbn [doubles]; [now left| |]; apply in_flat_map; eauto. Qed.
Example C102_applies : shows neat_show /\ json_ok doc_sized /\ exists a, de_animation doc_sized = Some a /\ images_sized a /\ (depth (ser_animation a) <= 127)%nat /\
  (forall x, float_in x (ser_animation a) -> survives neat_show x) /\ (4 < depth (ser_animation a))%nat /\ (20 < List.length (doubles (ser_animation a)))%nat.
Proof.
  split; [exact neat_shows|]. destruct C48_witness as (O & a & D & S & _). split; [exact O|]. exists a. split; [exact D|]. split; [exact S|].
  assert (T : match de_animation doc_sized with
              | Some a => forallb neat (doubles (ser_animation a)) && (depth (ser_animation a) <=? 127)%nat && (4 <? depth (ser_animation a))%nat && (20 <? List.length (doubles (ser_animation a)))%nat
              | None => false end = true) by (vm_compute; reflexivity).
  rewrite D in T. apply andb_prop in T as [T T4]. apply andb_prop in T as [T T3]. apply andb_prop in T as [T T2]. apply Nat.leb_le in T2. apply Nat.ltb_lt in T3, T4.
  repeat split; auto. intros x F. apply neat_survives. rewrite forallb_forall in T. apply T. now apply doubles_in.
Qed.
