(** Model of writing a document as JSON text: [Display] of [Animation]
    (animation/animation.rs:97-101), [serde_json::to_string], modelled from
    knowledge of serde_json 1.0.150's [ser.rs].  Members are listed as in
    [ser_animation]; their order in the text is that list.  How a finite
    double is written (ryu's [format_finite]) is a parameter. *)
From Coq Require Import ZArith Bool List String Ascii.
From Flocq Require Import BinarySingleNaN.
From Verif Require Import F64 Schema Serde JsonText.
Import ListNotations.
Local Open Scope string_scope.

(** the digit of a number below ten *)
Definition digit_char (n : Z) : ascii := byte (48 + n).
(** itoa: an integer that is not negative; [k] digits are enough *)
Fixpoint decimal (k : nat) (n : Z) : string :=
  match k with
  | O => String (digit_char n) ""
  | S k => if (n <? 10)%Z then String (digit_char n) "" else decimal k (n / 10) ++ String (digit_char (n mod 10)) ""
  end.
(** itoa: as many digits as it has bits are enough *)
Definition write_nat (n : Z) : string := decimal (Z.to_nat (Z.log2 n)) n.
(** itoa *)
Definition write_int (n : Z) : string := if (n <? 0)%Z then "-" ++ write_nat (- n) else write_nat n.
(** ser.rs [write_char_escape]: a hexadecimal digit *)
Definition hex_char (n : Z) : ascii := if (n <? 10)%Z then byte (48 + n) else byte (87 + n).
(** ser.rs [ESCAPE], [format_escaped_str_contents] *)
Definition write_char (c : ascii) : string :=
  if Ascii.eqb c """" then "\""" else if Ascii.eqb c "\" then "\\" else if Ascii.eqb c "008" then "\b" else if Ascii.eqb c "009" then "\t"
  else if Ascii.eqb c "010" then "\n" else if Ascii.eqb c "012" then "\f" else if Ascii.eqb c "013" then "\r"
  else if (nat_of_ascii c <? 32)%nat
       then "\u00" ++ String (hex_char (Z.of_nat (nat_of_ascii c) / 16)) (String (hex_char (Z.of_nat (nat_of_ascii c) mod 16)) "")
  else String c "".
(** ser.rs [format_escaped_str_contents] *)
Fixpoint write_chars (s : string) : string :=
  match s with EmptyString => "" | String c r => write_char c ++ write_chars r end.
(** ser.rs [format_escaped_str] *)
Definition write_str (s : string) : string := """" ++ write_chars s ++ """".
(** with commas between *)
Fixpoint commas (l : list string) : string :=
  match l with [] => "" | [x] => x | x :: r => x ++ "," ++ commas r end.
(** ser.rs [CompactFormatter] *)
Fixpoint write_text (show : f64 -> string) (j : json) : string :=
  match j with
  | JNull => "null"
  | JBool true => "true"
  | JBool false => "false"
  | JInt n => write_int n
  | JFloat x => if is_finite x then show x else "null"
  | JStr s => write_str s
  | JArr l => "[" ++ commas (map (write_text show) l) ++ "]"
  | JObj fs => "{" ++ commas (map (fun m => write_str (fst m) ++ ":" ++ write_text show (snd m)) fs) ++ "}"
  end.
(** animation/animation.rs:97-101 *)
Definition display (show : f64 -> string) (a : animation) : string := write_text show (ser_animation a).
