(** Model of reading a document from JSON text: [Composition::from_str]
    (runtime/mod.rs:52-60) and [from_slice] (runtime/mod.rs:37-42), which call
    [serde_json::from_str] and [from_slice] (animation/animation.rs:79-81,
    88-94).  The text reader is that of serde_json 1.0.150 (Cargo.lock:2537)
    without the features [float_roundtrip], [arbitrary_precision] and
    [unbounded_depth], modelled from knowledge of its [de.rs] and [read.rs].

    Simplifications.  A text is a string of bytes; for [from_slice] they are
    taken to be UTF-8, as they always are for [from_str].  The text is read to
    a [json] and then as in [from_json]; the program does so for the layers,
    the assets and the metadata, and reads the other members of a document in
    one pass.  The only difference is in members of markers and of ["meta"]
    that are not known: the program skips them, and accepts numbers that are
    too large, halves of surrogate pairs and any depth there. *)
From Coq Require Import ZArith Bool List String Ascii Lia.
From Flocq Require Import BinarySingleNaN.
From Verif Require Import F64 Kurbo Value Animated Schema Import Serde.
Import ListNotations.
Local Open Scope string_scope.
Local Open Scope char_scope.

(** white space: de.rs [parse_whitespace] *)
Definition is_space (c : ascii) : bool := Ascii.eqb c " " || Ascii.eqb c "010" || Ascii.eqb c "009" || Ascii.eqb c "013".
(** de.rs [parse_whitespace] *)
Fixpoint skip (s : string) : string :=
  match s with String c r => if is_space c then skip r else s | EmptyString => s end.
(** de.rs [parse_ident]: the given characters come next *)
Fixpoint expect (w s : string) : option string :=
  match w, s with
  | EmptyString, _ => Some s
  | String a w, String c r => if Ascii.eqb a c then expect w r else None
  | _, EmptyString => None
  end.

(** ** Strings *)
(** read.rs [decode_hex_val] *)
Definition hex_value (c : ascii) : option Z :=
  let n := Z.of_nat (nat_of_ascii c) in
  (if (48 <=? n) && (n <=? 57) then Some (n - 48)
   else if (65 <=? n) && (n <=? 70) then Some (n - 55)
   else if (97 <=? n) && (n <=? 102) then Some (n - 87)
   else None)%Z.
(** read.rs [decode_four_hex_digits] *)
Definition four_hex (s : string) : option (Z * string) :=
  match s with
  | String a (String b (String c (String d r))) =>
      let? a := hex_value a in let? b := hex_value b in let? c := hex_value c in let? d := hex_value d in
      Some (a * 4096 + b * 256 + c * 16 + d, r)%Z
  | _ => None
  end.
(** a byte *)
Definition byte (n : Z) : ascii := ascii_of_nat (Z.to_nat n).
(** read.rs [push_wtf8_codepoint] *)
Definition utf8 (n : Z) : string :=
  (if n <? 128 then String (byte n) EmptyString
   else if n <? 2048 then String (byte (192 + n / 64)) (String (byte (128 + n mod 64)) EmptyString)
   else if n <? 65536 then String (byte (224 + n / 4096)) (String (byte (128 + n / 64 mod 64)) (String (byte (128 + n mod 64)) EmptyString))
   else String (byte (240 + n / 262144)) (String (byte (128 + n / 4096 mod 64)) (String (byte (128 + n / 64 mod 64)) (String (byte (128 + n mod 64)) EmptyString))))%Z.
(** read.rs [parse_unicode_escape], after [\u] *)
Definition unicode_escape (s : string) : option (string * string) :=
  let? (n, r) := four_hex s in
  (if (56320 <=? n) && (n <=? 57343) then None
   else if (55296 <=? n) && (n <=? 56319) then
     let? r := expect "\u" r in
     let? (m, r) := four_hex r in
     if (56320 <=? m) && (m <=? 57343) then Some (utf8 ((n - 55296) * 1024 + (m - 56320) + 65536), r) else None
   else Some (utf8 n, r))%Z.
(** read.rs [parse_escape], the escapes of one letter *)
Definition short_escape (c : ascii) : option ascii :=
  if Ascii.eqb c """" then Some """" else if Ascii.eqb c "\" then Some "\" else if Ascii.eqb c "/" then Some "/"
  else if Ascii.eqb c "b" then Some "008" else if Ascii.eqb c "f" then Some "012" else if Ascii.eqb c "n" then Some "010"
  else if Ascii.eqb c "r" then Some "013" else if Ascii.eqb c "t" then Some "009" else None.
(** read.rs [parse_str_bytes], after the opening quote: the string and what
    follows the closing one; a budget of the length of the text is enough *)
Fixpoint chars (n : nat) (s : string) : option (string * string) :=
  match n, s with
  | S n, String c r =>
      if Ascii.eqb c """" then Some (EmptyString, r)
      else if Ascii.eqb c "\" then
        match r with
        | String e r1 =>
            let? (x, r2) := (if Ascii.eqb e "u" then unicode_escape r1 else let? d := short_escape e in Some (String d EmptyString, r1)) in
            let? (y, r3) := chars n r2 in
            Some (x ++ y, r3)
        | EmptyString => None
        end
      else if (nat_of_ascii c <? 32)%nat then None
      else let? (y, r1) := chars n r in Some (String c y, r1)
  | _, _ => None
  end.

(** ** Numbers *)
(** de.rs: a byte from [b'0'] to [b'9'], and its value *)
Definition is_digit (c : ascii) : bool := ((48 <=? nat_of_ascii c) && (nat_of_ascii c <=? 57))%nat.
(** de.rs: [c - b'0'] *)
Definition digit_value (c : ascii) : Z := Z.of_nat (nat_of_ascii c) - 48.
(** the digits at the start of the text *)
Fixpoint digits (s : string) : list ascii * string :=
  match s with
  | String c r => if is_digit c then let (l, r') := digits r in (c :: l, r') else ([], s)
  | EmptyString => ([], s)
  end.
(** de.rs [overflow!]: digits are added to the significand as long as it is a
    [u64]; the number of digits that were added, and those that were not *)
Fixpoint add_digits (sig : Z) (l : list ascii) : Z * Z * list ascii :=
  match l with
  | [] => (sig, 0%Z, [])
  | c :: r =>
      let sig' := (sig * 10 + digit_value c)%Z in
      if (sig' <=? usize_max)%Z then let '(s, k, rest) := add_digits sig' r in (s, (k + 1)%Z, rest) else (sig, 0%Z, l)
  end.
(** the same for the exponent, an [i32]; [None] is an overflow *)
Fixpoint exp_digits (e : Z) (l : list ascii) : option Z :=
  match l with
  | [] => Some e
  | c :: r => let e' := (e * 10 + digit_value c)%Z in if (e' <=? 2147483647)%Z then exp_digits e' r else None
  end.
(** de.rs [POW10]: the literals [1e0] to [1e308] *)
Definition pow10 (k : Z) : f64 := fnorm (10 ^ k) 0.
(** de.rs [f64_from_parts], the loop; a positive [f64] is [0.0] after three
    rounds at most *)
Fixpoint scale10 (n : nat) (f : f64) (e : Z) : option f64 :=
  match n with
  | O => None
  | S n =>
      if (Z.abs e <=? 308)%Z then
        if (0 <=? e)%Z then let g := fmul f (pow10 e) in (if is_finite g then Some g else None) else Some (fdiv f (pow10 (- e)))
      else if feqb f f0 then Some f
      else if (0 <=? e)%Z then None
      else scale10 n (fdiv f (pow10 308)) (e + 308)
  end.
(** de.rs [f64_from_parts] *)
Definition from_parts (neg : bool) (sig e : Z) : option json :=
  let? f := scale10 4 (f_of_Z sig) e in Some (JFloat (if neg then fneg f else f)).
(** [i32::saturating_add] *)
Definition sat32 (e : Z) : Z := Z.max (-2147483648) (Z.min 2147483647 e).
(** de.rs [parse_exponent] with [parse_exponent_overflow] *)
Definition with_exponent (neg : bool) (sig e0 : Z) (neg_exp : bool) (l : list ascii) : option json :=
  match exp_digits 0 l with
  | Some e => from_parts neg sig (sat32 (if neg_exp then e0 - e else e0 + e))
  | None => if negb (sig =? 0)%Z && negb neg_exp then None else Some (JFloat (if neg then fneg f0 else f0))
  end.
(** de.rs [parse_integer], [parse_long_integer], [parse_number],
    [parse_decimal], [parse_decimal_overflow] on the digits before the point,
    after it and of the exponent *)
Definition number_value (neg : bool) (ip : list ascii) (fp : option (list ascii)) (ep : option (bool * list ascii)) : option json :=
  let '(sig, _, more) := add_digits 0 ip in
  let e0 := Z.of_nat (List.length more) in
  match fp with
  | Some f =>
      let '(sig, k, _) := add_digits sig f in
      match ep with Some (ne, l) => with_exponent neg sig (e0 - k) ne l | None => from_parts neg sig (e0 - k) end
  | None =>
      match ep with
      | Some (ne, l) => with_exponent neg sig e0 ne l
      | None =>
          match more with
          | [] =>
              if negb neg then Some (JInt sig)
              else if (1 <=? sig)%Z && (sig <=? 9223372036854775808)%Z then Some (JInt (- sig)) else Some (JFloat (fneg (f_of_Z sig)))
          | _ => from_parts neg sig e0
          end
      end
  end.
(** the part after the point *)
Definition fraction (s : string) : option (option (list ascii) * string) :=
  match s with
  | String c r => if Ascii.eqb c "." then match digits r with ([], _) => None | (l, r') => Some (Some l, r') end else Some (None, s)
  | EmptyString => Some (None, s)
  end.
(** the exponent *)
Definition exponent (s : string) : option (option (bool * list ascii) * string) :=
  match s with
  | String c r =>
      if Ascii.eqb c "e" || Ascii.eqb c "E" then
        let (ne, r1) := match r with
                        | String d r' => if Ascii.eqb d "-" then (true, r') else if Ascii.eqb d "+" then (false, r') else (false, r)
                        | EmptyString => (false, r)
                        end in
        match digits r1 with ([], _) => None | (l, r') => Some (Some (ne, l), r') end
      else Some (None, s)
  | EmptyString => Some (None, s)
  end.
(** a minus sign *)
Definition minus (s : string) : bool * string :=
  match s with String c r => if Ascii.eqb c "-" then (true, r) else (false, s) | EmptyString => (false, s) end.
(** no digit after a zero at the start *)
Definition whole_ok (l : list ascii) : bool :=
  match l with [] => false | [_] => true | c :: _ => negb (Ascii.eqb c "0") end.
(** de.rs [parse_any_number] *)
Definition number (s : string) : option (json * string) :=
  let (neg, s1) := minus s in
  let (ip, s2) := digits s1 in
  if whole_ok ip then
    let? (fp, s3) := fraction s2 in
    let? (ep, s4) := exponent s3 in
    let? j := number_value neg ip fp ep in
    Some (j, s4)
  else None.

(** ** Values *)
(** de.rs [deserialize_any] with [SeqAccess] and [MapAccess]; [d] is
    [remaining_depth]; a budget of twice the length of the text is enough *)
Fixpoint value (n d : nat) (s : string) : option (json * string) :=
  match n with
  | O => None
  | S n =>
      match skip s with
      | EmptyString => None
      | String c r =>
          if Ascii.eqb c "n" then let? r := expect "ull" r in Some (JNull, r)
          else if Ascii.eqb c "t" then let? r := expect "rue" r in Some (JBool true, r)
          else if Ascii.eqb c "f" then let? r := expect "alse" r in Some (JBool false, r)
          else if Ascii.eqb c """" then let? (x, r) := chars (String.length r) r in Some (JStr x, r)
          else if Ascii.eqb c "[" then
            match d with
            | S (S d) =>
                match skip r with
                | String e r' => if Ascii.eqb e "]" then Some (JArr [], r') else let? (l, r) := elements n (S d) r in Some (JArr l, r)
                | EmptyString => None
                end
            | _ => None
            end
          else if Ascii.eqb c "{" then
            match d with
            | S (S d) =>
                match skip r with
                | String e r' => if Ascii.eqb e "}" then Some (JObj [], r') else let? (l, r) := members n (S d) r in Some (JObj l, r)
                | EmptyString => None
                end
            | _ => None
            end
          else number (String c r)
      end
  end
with elements (n d : nat) (s : string) : option (list json * string) :=
  match n with
  | O => None
  | S n =>
      let? (x, r) := value n d s in
      match skip r with
      | String c r =>
          if Ascii.eqb c "]" then Some ([x], r)
          else if Ascii.eqb c "," then let? (l, r) := elements n d r in Some (x :: l, r)
          else None
      | EmptyString => None
      end
  end
with members (n d : nat) (s : string) : option (list (string * json) * string) :=
  match n with
  | O => None
  | S n =>
      match skip s with
      | String q r =>
          if Ascii.eqb q """" then
            let? (k, r) := chars (String.length r) r in
            match skip r with
            | String c r =>
                if Ascii.eqb c ":" then
                  let? (x, r) := value n d r in
                  match skip r with
                  | String c r =>
                      if Ascii.eqb c "}" then Some ([(k, x)], r)
                      else if Ascii.eqb c "," then let? (l, r) := members n d r in Some ((k, x) :: l, r)
                      else None
                  | EmptyString => None
                  end
                else None
            | EmptyString => None
            end
          else None
      | EmptyString => None
      end
  end.
(** de.rs [from_trait]: a value and nothing but white space after it *)
Definition read_text (s : string) : option json :=
  let? (j, r) := value (2 * String.length s + 2) 128 s in
  match skip r with EmptyString => Some j | _ => None end.

Local Open Scope string_scope.
(** ** Members of the same name *)
(** serde_json's map.rs [insert]: a second member takes the place of the first *)
Definition put (fs : list (string * json)) (m : string * json) : list (string * json) :=
  (filter (fun m' => negb (String.eqb (fst m') (fst m))) fs ++ [m])%list.
(** value/de.rs [visit_map]: all members are inserted one by one *)
Definition last_ones (fs : list (string * json)) : list (string * json) := fold_left put fs [].
(** value/de.rs: a [serde_json::Value] *)
Fixpoint settle (j : json) : json :=
  match j with
  | JArr l => JArr (map settle l)
  | JObj fs => JObj (last_ones (map (fun m => (fst m, settle (snd m))) fs))
  | _ => j
  end.
(** one of the names occurs twice: an error of the derived [Deserialize] *)
Definition twice (keys : list string) (fs : list (string * json)) : bool :=
  existsb (fun k => (1 <? List.length (filter (fun m => String.eqb (fst m) k) fs))%nat) keys.
(** the same of a value that is an object *)
Definition twice_in (keys : list string) (j : json) : bool := match j with JObj fs => twice keys fs | _ => false end.
(** animation/animation.rs:13-74, animation/composition.rs, helpers/visual_object.rs:6-16 *)
Definition document_keys : list string :=
  ["nm"; "mn"; "layers"; "v"; "ver"; "fr"; "ip"; "op"; "w"; "h"; "ddd"; "assets"; "markers"; "meta"; "metadata"]%list.
(** helpers/marker.rs:8-24 *)
Definition marker_keys : list string := ["cm"; "tm"; "dr"]%list.
(** animation/meta.rs *)
Definition meta_keys : list string := ["a"; "d"; "tc"; "g"; "k"]%list.
(** duplicate members in what is read in one pass *)
Definition duplicate (j : json) : bool :=
  match j with
  | JObj fs => twice document_keys fs ||
      existsb (fun m => (String.eqb (fst m) "markers" && match snd m with JArr l => existsb (twice_in marker_keys) l | _ => false end) ||
                        (String.eqb (fst m) "meta" && twice_in meta_keys (snd m))) fs
  | _ => false
  end.

(** runtime/mod.rs:52-60 [Composition::from_str]; runtime/mod.rs:37-42
    [Composition::from_slice] *)
Definition from_str (E : Ext) (s : string) : option (res composition) :=
  let? j := read_text s in if duplicate j then None else from_json E (settle j).
