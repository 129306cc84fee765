(** Documents whose shapes move: what they are, how they are written, and
    what they show at a moment.  Nothing here mentions how the program
    interpolates. *)
From Coq Require Import ZArith Reals Bool List String.
From Flocq Require Import Core BinarySingleNaN.
From Verif Require Import F64 Kurbo F64Facts EasingSpec ValueSpec Schema Serde PropPoster.
Import ListNotations.
Open Scope string_scope.
Open Scope list_scope.
Open Scope R_scope.

(** ** Values over time *)
(** A keyframe: its time, its value, whether the value is held until the next
    one, and the two handles of the easing curve towards the next one. *)
Record beat (A : Type) := mkBeat { bt_time : f64; bt_value : A; bt_hold : bool; bt_out : f64 * f64; bt_in : f64 * f64 }.
Arguments mkBeat {A}. Arguments bt_time {A}. Arguments bt_value {A}. Arguments bt_hold {A}. Arguments bt_out {A}. Arguments bt_in {A}.
(** A value that stays, or at least one keyframe. *)
Inductive track (A : Type) := Still (a : A) | Moving (b : beat A) (l : list (beat A)).
Arguments Still {A}. Arguments Moving {A}.
Definition pair : Type := f64 * f64.

(** [x] lies between [a] and [b] as the easing curve from [k] says at [frame]. *)
Definition glides {A B} (k : beat A) (l : beat B) (frame a b x : f64) : Prop :=
  fin x /\ exists y,
    on_curve (B2R (fst (bt_out k))) (B2R (snd (bt_out k))) (B2R (fst (bt_in k))) (B2R (snd (bt_in k))) (/ 100000000)
      ((B2R frame - B2R (bt_time k)) / (B2R (bt_time l) - B2R (bt_time k))) y /\
    Rabs (B2R x - (B2R a + (B2R b - B2R a) * y)) <= / 1000000.
(** [x] is the value at [frame]: the first one before, the last one after all
    keyframes; between two, the first of them if it is held, else on the curve. *)
Definition moment {A} (part : A -> A -> (f64 -> f64 -> f64 -> Prop) -> A -> Prop) (t : track A) (frame : f64) (x : A) : Prop :=
  match t with
  | Still a => x = a
  | Moving b l =>
      (B2R frame < B2R (bt_time b) /\ x = bt_value b) \/
      (exists k k' before after, b :: l = before ++ k :: k' :: after /\ B2R (bt_time k) <= B2R frame < B2R (bt_time k') /\
         (if bt_hold k then x = bt_value k else part (bt_value k) (bt_value k') (glides k k' frame) x)) \/
      (exists k before, b :: l = before ++ [k] /\ B2R (bt_time k) <= B2R frame /\
         part (bt_value k) (bt_value k) (fun a _ x => fin x /\ B2R x = B2R a) x)
  end.
(** A number; a pair, of which both parts do the same. *)
Definition one (a b : f64) (R : f64 -> f64 -> f64 -> Prop) (x : f64) : Prop := R a b x.
Definition two (a b : pair) (R : f64 -> f64 -> f64 -> Prop) (x : pair) : Prop := R (fst a) (fst b) (fst x) /\ R (snd a) (snd b) (snd x).

(** Keyframes one after the other, with ordinary numbers. *)
Definition good_beat {A} (nums : A -> list f64) (k : beat A) : Prop :=
  fin (bt_time k) /\ Rabs (B2R (bt_time k)) <= 1048576 /\ Forall ordinary_number (nums (bt_value k)) /\
  (fin (fst (bt_out k)) /\ Rabs (B2R (fst (bt_out k))) <= 4) /\ (fin (snd (bt_out k)) /\ Rabs (B2R (snd (bt_out k))) <= 16) /\
  (fin (fst (bt_in k)) /\ Rabs (B2R (fst (bt_in k))) <= 4) /\ (fin (snd (bt_in k)) /\ Rabs (B2R (snd (bt_in k))) <= 16).
Definition good_track {A} (nums : A -> list f64) (t : track A) : Prop :=
  match t with
  | Still _ => True
  | Moving b l => Forall (good_beat nums) (b :: l) /\
      forall k k' before between after, b :: l = before ++ k :: between ++ k' :: after -> B2R (bt_time k) < B2R (bt_time k')
  end.
Definition good_number : track f64 -> Prop := good_track (fun x => [x]).
Definition good_pair : track pair -> Prop := good_track (fun x => [fst x; snd x]).

(** ** Documents *)
(** As in C96, but what is not a colour, a kind or a size of the canvas may move. *)
Record cue := mkCue { cu_anchor : track pair; cu_position : track pair; cu_scale : track pair; cu_rotation : track f64; cu_opacity : track f64 }.
Record actor := mkActor { ac_round : bool; ac_centre : track pair; ac_size : track pair; ac_r : f64; ac_g : f64; ac_b : f64;
  ac_opacity : track f64; ac_cue : cue }.
Record act := mkAct { ct_ip : f64; ct_op : f64; ct_cue : cue; ct_actors : list actor }.
Record film := mkFilm { fi_in : f64; fi_out : f64; fi_rate : f64; fi_wide : Z; fi_high : Z; fi_acts : list act }.

Definition good_cue (c : cue) : Prop :=
  good_pair (cu_anchor c) /\ good_pair (cu_position c) /\ good_pair (cu_scale c) /\ good_number (cu_rotation c) /\ good_number (cu_opacity c).
Definition good_actor (a : actor) : Prop :=
  good_pair (ac_centre a) /\ good_pair (ac_size a) /\ good_number (ac_opacity a) /\ good_cue (ac_cue a).
Definition good_film (f : film) : Prop :=
  Forall (fun s => good_cue (ct_cue s) /\ Forall good_actor (ct_actors s)) (fi_acts f).

(** Their JSON *)
Definition handle_json (h : f64 * f64) : json := JObj [("x", JFloat (fst h)); ("y", JFloat (snd h))].
Definition beat_json {A} (nums : A -> list f64) (k : beat A) : json :=
  JObj [("t", JFloat (bt_time k)); ("s", JArr (map JFloat (nums (bt_value k)))); ("h", JInt (if bt_hold k then 1 else 0));
        ("o", handle_json (bt_out k)); ("i", handle_json (bt_in k))].
Definition number_track (t : track f64) : json :=
  match t with Still x => number_json x | Moving b l => JObj [("k", JArr (map (beat_json (fun x => [x])) (b :: l)))] end.
Definition pair_track (t : track pair) : json :=
  match t with Still x => pair_json (fst x) (snd x) | Moving b l => JObj [("k", JArr (map (beat_json (fun x => [fst x; snd x])) (b :: l)))] end.
Definition cue_members (c : cue) : list (string * json) :=
  [("a", pair_track (cu_anchor c)); ("p", pair_track (cu_position c)); ("s", pair_track (cu_scale c));
   ("r", number_track (cu_rotation c)); ("o", number_track (cu_opacity c))].
Definition actor_outline_json (i : actor) : json :=
  if ac_round i then JObj [("ty", JStr "el"); ("p", pair_track (ac_centre i)); ("s", pair_track (ac_size i))]
  else JObj [("ty", JStr "rc"); ("p", pair_track (ac_centre i)); ("s", pair_track (ac_size i)); ("r", number_json f0)].
Definition actor_fill_json (i : actor) : json :=
  JObj [("ty", JStr "fl"); ("c", JObj [("k", JArr [JFloat (ac_r i); JFloat (ac_g i); JFloat (ac_b i)])]); ("o", number_track (ac_opacity i))].
Definition actor_json (i : actor) : json :=
  JObj [("ty", JStr "gr"); ("it", JArr [actor_outline_json i; actor_fill_json i; JObj (("ty", JStr "tr") :: cue_members (ac_cue i))])].
Definition act_json (s : act) : json :=
  JObj [("ty", JInt 4); ("ip", JFloat (ct_ip s)); ("op", JFloat (ct_op s)); ("ks", JObj (cue_members (ct_cue s)));
        ("shapes", JArr (map actor_json (ct_actors s)))].
Definition film_json (f : film) : json :=
  JObj [("fr", JFloat (fi_rate f)); ("ip", JFloat (fi_in f)); ("op", JFloat (fi_out f)); ("w", JInt (fi_wide f)); ("h", JInt (fi_high f));
        ("layers", JArr (map act_json (fi_acts f)))].

(** ** What is shown at a moment: a poster (C96) with the values of that moment *)
Definition cue_now (c : cue) (frame : f64) (p : spot) : Prop :=
  moment two (cu_anchor c) frame (sp_ax p, sp_ay p) /\ moment two (cu_position c) frame (sp_px p, sp_py p) /\
  moment two (cu_scale c) frame (sp_sx p, sp_sy p) /\ moment one (cu_rotation c) frame (sp_rot p) /\ moment one (cu_opacity c) frame (sp_opacity p).
Definition actor_now (frame : f64) (a : actor) (i : figure) : Prop :=
  fg_round i = ac_round a /\ moment two (ac_centre a) frame (fg_x i, fg_y i) /\ moment two (ac_size a) frame (fg_w i, fg_h i) /\
  fg_r i = ac_r a /\ fg_g i = ac_g a /\ fg_b i = ac_b a /\ moment one (ac_opacity a) frame (fg_opacity i) /\ cue_now (ac_cue a) frame (fg_spot i).
Definition act_now (frame : f64) (a : act) (s : sheet) : Prop :=
  se_ip s = ct_ip a /\ se_op s = ct_op a /\ cue_now (ct_cue a) frame (se_spot s) /\ Forall2 (actor_now frame) (ct_actors a) (se_figures s).
Definition film_now (f : film) (frame : f64) (p : poster) : Prop :=
  po_in p = fi_in f /\ po_out p = fi_out f /\ po_rate p = fi_rate f /\ po_wide p = fi_wide f /\ po_high p = fi_high f /\
  Forall2 (act_now frame) (fi_acts f) (po_sheets p).

(** ** Keyframes that stay within bounds *)
(** The values are at most [b] in size, and the handles do not overshoot. *)
Definition calm_beat {A} (nums : A -> list f64) (b : R) (k : beat A) : Prop :=
  Forall (fun x => fin x /\ Rabs (B2R x) <= b) (nums (bt_value k)) /\ 0 <= B2R (snd (bt_out k)) <= 1 /\ 0 <= B2R (snd (bt_in k)) <= 1.
Definition calm {A} (nums : A -> list f64) (b : R) (t : track A) : Prop :=
  match t with Still a => Forall (fun x => fin x /\ Rabs (B2R x) <= b) (nums a) | Moving k l => Forall (calm_beat nums b) (k :: l) end.
Definition calm_number : R -> track f64 -> Prop := calm (fun x => [x]).
Definition calm_pair : R -> track pair -> Prop := calm (fun x => [fst x; snd x]).
Definition calm_cue (c : cue) : Prop :=
  calm_pair 8191 (cu_anchor c) /\ calm_pair 8191 (cu_position c) /\ calm_pair 1599 (cu_scale c) /\ calm_number 16383 (cu_rotation c).
