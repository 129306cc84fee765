(** What is expected of reading and writing documents, independently of
    Serde.v. *)
From Coq Require Import ZArith Bool List String.
From Flocq Require Import BinarySingleNaN.
From Verif Require Import F64 Schema.
Import ListNotations.
Local Open Scope string_scope.
Local Open Scope list_scope.

(** The values of [serde_json::Value]: integers have 64 bits, other numbers
    are finite, the keys of an object are different. *)
Inductive json_ok : json -> Prop :=
| ok_null : json_ok JNull
| ok_bool b : json_ok (JBool b)
| ok_int n : (- 2 ^ 63 <= n < 2 ^ 64)%Z -> json_ok (JInt n)
| ok_float x : is_finite x = true -> json_ok (JFloat x)
| ok_str s : json_ok (JStr s)
| ok_arr l : Forall json_ok l -> json_ok (JArr l)
| ok_obj fs : Forall (fun m => json_ok (snd m)) fs -> NoDup (map fst fs) -> json_ok (JObj fs).

(** the member of an object under a key *)
Fixpoint member (k : string) (fs : list (string * json)) : option json :=
  match fs with
  | [] => None
  | (k', v) :: r => if String.eqb k k' then Some v else member k r
  end.

(** * Kinds of layer, by their documented code *)
Inductive layer_kind := KPrecomp | KSolid | KImage | KNull | KShape.
Definition kind_of (l : any_layer) : layer_kind :=
  match l with
  | AlPrecomp _ _ _ _ _ _ => KPrecomp
  | AlSolid _ _ _ _ => KSolid
  | AlImage _ _ => KImage
  | AlNull _ => KNull
  | AlShape _ _ => KShape
  end.
Definition layer_codes : list (Z * layer_kind) :=
  [(0, KPrecomp); (1, KSolid); (2, KImage); (3, KNull); (4, KShape)]%Z.

(** * Documented codes of the constants *)
Definition bool_int_codes : list (Z * bool_int) := [(0, BIFalse); (1, BITrue)]%Z.
Definition blend_codes : list (Z * s_blend) :=
  [(0, SbNormal); (1, SbMultiply); (2, SbScreen); (3, SbOverlay); (4, SbDarken); (5, SbLighten);
   (6, SbColorDodge); (7, SbColorBurn); (8, SbHardLight); (9, SbSoftLight); (10, SbDifference);
   (11, SbExclusion); (12, SbHue); (13, SbSaturation); (14, SbColor); (15, SbLuminosity);
   (16, SbAdd); (17, SbHardMix)]%Z.
Definition matte_codes : list (Z * matte_mode) :=
  [(0, MmNormal); (1, MmAlpha); (2, MmInvertedAlpha); (3, MmLuma); (4, MmInvertedLuma)]%Z.
Definition cap_codes : list (Z * line_cap) := [(1, LcButt); (2, LcRound); (3, LcSquare)]%Z.
Definition join_codes : list (Z * line_join) := [(1, LjMiter); (2, LjRound); (3, LjBevel)]%Z.
Definition rule_codes : list (Z * fill_rule) := [(1, FrNonZero); (2, FrEvenOdd)]%Z.
Definition gradient_codes : list (Z * gradient_type) := [(1, GtLinear); (2, GtRadial)]%Z.
Definition star_codes : list (Z * star_type) := [(1, StStar); (2, StPolygon)]%Z.
Definition direction_codes : list (Z * shape_direction) := [(1, SdNormal); (3, SdReversed)]%Z.
Definition merge_codes : list (Z * merge_mode) :=
  [(1, MgNormal); (2, MgAdd); (3, MgSubtract); (4, MgIntersect); (5, MgExclude)]%Z.
Definition composite_codes : list (Z * composite) := [(1, CpAbove); (2, CpBelow)]%Z.
Definition trim_codes : list (Z * trim_multiple) := [(1, TmIndividually); (2, TmSimultaneously)]%Z.

(** [dec] reads exactly the codes of the table, [enc] writes them, and every
    value has exactly one code *)
Definition coded {A} (table : list (Z * A)) (dec : json -> option A) (enc : A -> json) : Prop :=
  (forall j x, dec j = Some x <-> exists n, j = JInt n /\ In (n, x) table) /\
  (forall x, exists n, enc x = JInt n /\ In (n, x) table) /\
  (forall x, dec (enc x) = Some x) /\
  (forall n n' x, In (n, x) table -> In (n', x) table -> n = n').

(** the string-coded constants *)
Definition mask_names : list (string * mask_mode) :=
  [("n", MkNone); ("a", MkAdd); ("s", MkSubtract); ("i", MkIntersect); ("l", MkLighten);
   ("d", MkDarken); ("f", MkDifference)].
Definition dash_names : list (string * dash_type) := [("d", DtDash); ("g", DtGap); ("o", DtOffset)].
Definition named {A} (table : list (string * A)) (dec : json -> option A) (enc : A -> json) : Prop :=
  (forall s x, dec (JStr s) = Some x <-> In (s, x) table) /\
  (forall j x, dec j = Some x -> exists s, In (s, x) table /\ (j = JStr s \/ exists v, j = JObj [(s, v)])) /\
  (forall x, exists s, enc x = JStr s /\ In (s, x) table) /\
  (forall x, dec (enc x) = Some x).

(** * Round trip *)

(** an image of the document gives a width or a height *)
Definition image_sized (a : any_asset) : Prop :=
  match a with AaImage _ _ w h _ => w <> None \/ h <> None | AaPrecomp _ _ _ _ => True end.
Definition images_sized (a : animation) : Prop :=
  match ani_assets a with Some l => Forall image_sized l | None => True end.

(** * The animated paths of a document *)
Inductive path_in_shape (p : shape_prop) : any_shape -> Prop :=
| pis_path sh : path_in_shape p (AsPath sh p)
| pis_group ge np it cix x : In x it -> path_in_shape p x -> path_in_shape p (AsGroup ge np it cix).
Inductive path_in_layer (p : shape_prop) : any_layer -> Prop :=
| pil_shape vl shapes x : In x shapes -> path_in_shape p x -> path_in_layer p (AlShape vl shapes)
| pil_mask l masks m : vl_masks (visual_of l) = Some masks -> In m masks -> mas_pt m = Some p -> path_in_layer p l.
Definition path_in_document (p : shape_prop) (a : animation) : Prop :=
  (exists l, In l (ani_layers a) /\ path_in_layer p l) \/
  (exists assets ass layers fr xt l, ani_assets a = Some assets /\ In (AaPrecomp ass layers fr xt) assets /\
     In l layers /\ path_in_layer p l).

(** * Members that make no difference *)

(** the names of all members velato reads anywhere *)
Definition known_members : list string :=
  ["a"; "ao"; "assets"; "bm"; "c"; "cix"; "cl"; "cm"; "cp"; "ct"; "d"; "ddd"; "dr"; "e"; "eo"; "fr"; "g"; "h";
   "hasMask"; "hd"; "i"; "id"; "ind"; "inv"; "ip"; "ir"; "is"; "it"; "ix"; "k"; "ks"; "l"; "layers"; "lc"; "lj";
   "ln"; "m"; "markers"; "masksProperties"; "mb"; "meta"; "metadata"; "ml"; "ml2"; "mm"; "mn"; "mode"; "n"; "nm";
   "np"; "o"; "op"; "or"; "os"; "p"; "parent"; "pt"; "r"; "refId"; "s"; "sa"; "sc"; "sh"; "shapes"; "sid"; "sk";
   "so"; "sr"; "st"; "sw"; "sy"; "t"; "tc"; "td"; "tg"; "ti"; "tm"; "to"; "tp"; "tr"; "tt"; "ty"; "u"; "v"; "ver";
   "w"; "x"; "xt"; "y"; "z"].
(** the names of members whose presence alone says something (about an asset) *)
Definition presence_members : list string := ["layers"; "w"; "h"; "t"].
(** an object that stands for a mask mode or dash type: [{"a": null}] *)
Definition unit_variant (fs : list (string * json)) : Prop :=
  exists k v, fs = [(k, v)] /\ (In k (map fst mask_names) \/ In k (map fst dash_names)) /\ (v = JNull \/ v = JObj []).

(** members that may be added in front of the members [fs] of an object:
    unknown ones, or [null] under a name that [fs] does not have *)
Definition unknown_member (k : string) (v : json) (fs : list (string * json)) : Prop := ~ In k known_members.
Definition null_member (k : string) (v : json) (fs : list (string * json)) : Prop :=
  v = JNull /\ ~ In k presence_members /\ member k fs = None.
Definition harmless_member k v fs : Prop := unknown_member k v fs \/ null_member k v fs.

(** [padded extra j j']: [j'] is [j] with [extra] members added to its objects,
    at any depth *)
Inductive padded (extra : string -> json -> list (string * json) -> Prop) : json -> json -> Prop :=
| pad_same j : padded extra j j
| pad_arr l l' : padded_list extra l l' -> padded extra (JArr l) (JArr l')
| pad_obj fs fs' : ~ unit_variant fs -> ~ unit_variant fs' -> padded_members extra fs fs' ->
    padded extra (JObj fs) (JObj fs')
with padded_list (extra : string -> json -> list (string * json) -> Prop) : list json -> list json -> Prop :=
| padl_nil : padded_list extra [] []
| padl_cons v v' l l' : padded extra v v' -> padded_list extra l l' -> padded_list extra (v :: l) (v' :: l')
with padded_members (extra : string -> json -> list (string * json) -> Prop)
  : list (string * json) -> list (string * json) -> Prop :=
| padm_nil : padded_members extra [] []
| padm_keep k v v' fs fs' : padded extra v v' -> padded_members extra fs fs' ->
    padded_members extra ((k, v) :: fs) ((k, v') :: fs')
| padm_add k v fs fs' : extra k v fs -> padded_members extra fs fs' -> padded_members extra fs ((k, v) :: fs').

(** * What a field is read from *)
(** the required member [k] *)
Definition reads_req {A} (fs : list (string * json)) (k : string) (f : json -> option A) (x : A) : Prop :=
  exists v, member k fs = Some v /\ f v = Some x.
(** the member [k] if there is one and it is not null *)
Definition reads_opt {A} (fs : list (string * json)) (k : string) (f : json -> option A) (o : option A) : Prop :=
  (o = None /\ (member k fs = None \/ member k fs = Some JNull)) \/
  (exists v x, member k fs = Some v /\ v <> JNull /\ f v = Some x /\ o = Some x).
