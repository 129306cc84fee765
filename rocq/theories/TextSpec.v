(** JSON text: which texts stand for which values (RFC 8259).  Nothing here
    mentions how text is read. *)
From Coq Require Import ZArith Reals Bool List String Ascii.
From Flocq Require Import Core BinarySingleNaN.
From Verif Require Import F64 F64Facts Schema.
Import ListNotations.
Local Open Scope string_scope.

Definition code (c : ascii) : Z := Z.of_nat (nat_of_ascii c).
(** ** White space *)
Definition blank (w : string) : Prop := Forall (fun c => In c [" "%char; "009"%char; "010"%char; "013"%char]) (list_ascii_of_string w).

(** ** Strings *)
(** The number of a hexadecimal digit, and of four of them. *)
Definition hex (c : ascii) (v : Z) : Prop :=
  (0 <= v < 16)%Z /\ (code c = 48 + v /\ v < 10 \/ code c = 55 + v /\ 10 <= v \/ code c = 87 + v /\ 10 <= v)%Z.
Definition hex4 (h : string) (n : Z) : Prop :=
  exists c1 c2 c3 c4 v1 v2 v3 v4, h = String c1 (String c2 (String c3 (String c4 ""))) /\
    hex c1 v1 /\ hex c2 v2 /\ hex c3 v3 /\ hex c4 v4 /\ n = (((v1 * 16 + v2) * 16 + v3) * 16 + v4)%Z.
(** The bytes of a character (UTF-8). *)
Definition bytes (l : list Z) (s : string) : Prop := map code (list_ascii_of_string s) = l.
Definition encoded (n : Z) (s : string) : Prop :=
  ((0 <= n < 128 /\ bytes [n] s) \/
   (exists a b, n = a * 64 + b /\ 128 <= n < 2048 /\ 0 <= b < 64 /\ bytes [192 + a; 128 + b] s) \/
   (exists a b c, n = (a * 64 + b) * 64 + c /\ 2048 <= n < 65536 /\ 0 <= b < 64 /\ 0 <= c < 64 /\ bytes [224 + a; 128 + b; 128 + c] s) \/
   (exists a b c d, n = ((a * 64 + b) * 64 + c) * 64 + d /\ 65536 <= n < 1114112 /\ 0 <= b < 64 /\ 0 <= c < 64 /\ 0 <= d < 64 /\
      bytes [240 + a; 128 + b; 128 + c; 128 + d] s))%Z.
Definition surrogate (n : Z) : Prop := (55296 <= n < 57344)%Z.
(** The escapes of one letter. *)
Definition shorts : list (ascii * ascii) :=
  [(""""%char, """"%char); ("\"%char, "\"%char); ("/"%char, "/"%char); ("b"%char, "008"%char); ("f"%char, "012"%char);
   ("n"%char, "010"%char); ("r"%char, "013"%char); ("t"%char, "009"%char)].
(** [t] between quotes stands for the string [x]. *)
Inductive spells : string -> string -> Prop :=
| sp_end : spells "" ""
| sp_plain c x t : c <> """"%char -> c <> "\"%char -> (32 <= code c)%Z -> spells x t -> spells (String c x) (String c t)
| sp_short e c x t : In (e, c) shorts -> spells x t -> spells (String c x) ("\" ++ String e t)
| sp_code h n u x t : hex4 h n -> ~ surrogate n -> encoded n u -> spells x t -> spells (u ++ x) ("\u" ++ h ++ t)
| sp_pair h n h' n' u x t : hex4 h n -> hex4 h' n' -> (55296 <= n < 56320)%Z -> (56320 <= n' < 57344)%Z ->
    encoded ((n - 55296) * 1024 + (n' - 56320) + 65536) u -> spells x t -> spells (u ++ x) ("\u" ++ h ++ "\u" ++ h' ++ t).

(** ** Numbers *)
Definition digit (c : ascii) : Prop := (48 <= code c <= 57)%Z.
(** The number that digits stand for. *)
Definition amount (l : list ascii) : Z := fold_left (fun a c => (a * 10 + (code c - 48))%Z) l 0%Z.
(** A number: sign, digits before the point, after it, and the exponent with
    the characters before its digits. *)
Record figure_text := mkFT { ft_minus : bool; ft_whole : list ascii; ft_part : option (list ascii); ft_exp : option (string * list ascii) }.
Definition well_formed (f : figure_text) : Prop :=
  Forall digit (ft_whole f) /\ (List.length (ft_whole f) = 1%nat \/ exists c l, ft_whole f = c :: l /\ c <> "0"%char) /\
  match ft_part f with Some l => Forall digit l /\ l <> [] | None => True end /\
  match ft_exp f with Some (m, l) => In m ["e"; "E"; "e+"; "E+"; "e-"; "E-"] /\ Forall digit l /\ l <> [] | None => True end.
Definition figure_string (f : figure_text) : string :=
  (if ft_minus f then "-" else "") ++ string_of_list_ascii (ft_whole f) ++
  match ft_part f with Some l => "." ++ string_of_list_ascii l | None => "" end ++
  match ft_exp f with Some (m, l) => m ++ string_of_list_ascii l | None => "" end.
(** What it stands for: [amount] of all digits, times a power of ten. *)
Definition part_digits (f : figure_text) : list ascii := match ft_part f with Some l => l | None => [] end.
Definition figure_digits (f : figure_text) : Z := amount (ft_whole f ++ part_digits f).
Definition exp_of (f : figure_text) : Z :=
  match ft_exp f with Some (m, l) => (if existsb (String.eqb m) ["e-"; "E-"] then - amount l else amount l)%Z | None => 0%Z end.
Definition ten_exp (f : figure_text) : Z := (exp_of f - Z.of_nat (List.length (part_digits f)))%Z.
Definition figure_value (f : figure_text) : R :=
  ((if ft_minus f then -1 else 1) * IZR (figure_digits f) * powerRZ 10 (ten_exp f))%R.
(** The double closest to [v], with the given sign. *)
Definition closest (neg : bool) (v : R) (x : f64) : Prop :=
  is_finite x = true /\ B2R x = round radix2 (FLT_exp (-1074) 53) ZnearestE v /\ Bsign x = neg.
(** [x] is [v] up to a few units of the last of its 53 binary places. *)
Definition close (neg : bool) (v : R) (x : f64) : Prop :=
  is_finite x = true /\ (Rabs (B2R x - v) <= Rabs v * bpow radix2 (-51))%R /\ Bsign x = neg.
(** A number that is written as an integer, and fits in 64 bits. *)
Definition integral (f : figure_text) : Prop :=
  ft_part f = None /\ ft_exp f = None /\
  if ft_minus f then (1 <= figure_digits f <= 9223372036854775808)%Z else (figure_digits f <= 18446744073709551615)%Z.
(** Few digits and a small power of ten; 19 digits and a power of ten that is not very large. *)
Definition short_number (f : figure_text) : Prop :=
  (figure_digits f < 2 ^ 53)%Z /\ (Z.abs (ten_exp f) <= 22)%Z /\ (Z.abs (exp_of f) <= 2147483647)%Z.
Definition usual_number (f : figure_text) : Prop :=
  (figure_digits f <= 18446744073709551615)%Z /\ (Z.abs (ten_exp f) <= 280)%Z /\ (Z.abs (exp_of f) <= 2147483647)%Z.
Definition signed_digits (f : figure_text) : Z := (if ft_minus f then - figure_digits f else figure_digits f)%Z.
(** The text [t] stands for the number [j]: an integer, or the double closest to it. *)
Definition exact_number (t : string) (j : json) : Prop :=
  exists f, well_formed f /\ t = figure_string f /\
    ((integral f /\ j = JInt (signed_digits f)) \/
     (~ integral f /\ short_number f /\ exists x, closest (ft_minus f) (figure_value f) x /\ j = JFloat x)).
(** The same for all numbers, with what can be said of them. *)
Definition fair_number (t : string) (j : json) : Prop :=
  exists f, well_formed f /\ t = figure_string f /\
    ((integral f /\ j = JInt (signed_digits f)) \/
     (~ integral f /\ exists x, j = JFloat x /\ is_finite x = true /\ (short_number f -> closest (ft_minus f) (figure_value f) x) /\
        (usual_number f -> close (ft_minus f) (figure_value f) x))).
(** Any number that is not very long, whatever it is read as. *)
Definition usual_text (t : string) (_ : json) : Prop := exists f, well_formed f /\ t = figure_string f /\ (integral f \/ usual_number f).

(** ** Values: at most [d] arrays and objects within each other *)
Inductive text_of (number : string -> json -> Prop) : nat -> json -> string -> Prop :=
| to_null d : text_of number d JNull "null"
| to_true d : text_of number d (JBool true) "true"
| to_false d : text_of number d (JBool false) "false"
| to_number d j t : number t j -> text_of number d j t
| to_string d x t : spells x t -> text_of number d (JStr x) ("""" ++ t ++ """")
| to_empty d w : blank w -> text_of number (S d) (JArr []) ("[" ++ w ++ "]")
| to_array d l t : texts_of number d l t -> text_of number (S d) (JArr l) ("[" ++ t ++ "]")
| to_nothing d w : blank w -> text_of number (S d) (JObj []) ("{" ++ w ++ "}")
| to_object d l t : members_of number d l t -> text_of number (S d) (JObj l) ("{" ++ t ++ "}")
with texts_of (number : string -> json -> Prop) : nat -> list json -> string -> Prop :=
| ts_one d w1 j t w2 : blank w1 -> text_of number d j t -> blank w2 -> texts_of number d [j] (w1 ++ t ++ w2)
| ts_more d w1 j t w2 l r : blank w1 -> text_of number d j t -> blank w2 -> texts_of number d l r -> texts_of number d (j :: l) (w1 ++ t ++ w2 ++ "," ++ r)
with members_of (number : string -> json -> Prop) : nat -> list (string * json) -> string -> Prop :=
| ms_one d w1 k kt w2 w3 j t w4 : blank w1 -> spells k kt -> blank w2 -> blank w3 -> text_of number d j t -> blank w4 ->
    members_of number d [(k, j)] (w1 ++ """" ++ kt ++ """" ++ w2 ++ ":" ++ w3 ++ t ++ w4)
| ms_more d w1 k kt w2 w3 j t w4 l r : blank w1 -> spells k kt -> blank w2 -> blank w3 -> text_of number d j t -> blank w4 -> members_of number d l r ->
    members_of number d ((k, j) :: l) (w1 ++ """" ++ kt ++ """" ++ w2 ++ ":" ++ w3 ++ t ++ w4 ++ "," ++ r).
(** A whole text. *)
Definition document (number : string -> json -> Prop) (d : nat) (j : json) (s : string) : Prop :=
  exists w1 t w2, blank w1 /\ text_of number d j t /\ blank w2 /\ s = w1 ++ t ++ w2.
(** No object has two members of the same name. *)
Inductive distinct_names : json -> Prop :=
| dn_null : distinct_names JNull
| dn_bool b : distinct_names (JBool b)
| dn_int n : distinct_names (JInt n)
| dn_float x : distinct_names (JFloat x)
| dn_str s : distinct_names (JStr s)
| dn_arr l : Forall distinct_names l -> distinct_names (JArr l)
| dn_obj fs : Forall (fun m => distinct_names (snd m)) fs -> NoDup (map fst fs) -> distinct_names (JObj fs).
