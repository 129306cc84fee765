(** Which part of an outline a trim keeps. *)
From Coq Require Import ZArith Bool List Arith.
From Flocq Require Import BinarySingleNaN.
From Verif Require Import F64 Kurbo ValueSpec.
Import ListNotations.

(** The distance from the start of the outline to the start of segment [i]
    (to the end of segment [i-1]), along the segments in front. *)
Definition distance (E : Ext) (segs : list path_seg) (i : nat) : f64 :=
  fold_left (fun d s => fadd d (x_arclen E s)) (firstn i segs) f0.
(** A part of segment number [pa_ix]: from one curve parameter to another. *)
Record part := mkPart { pa_ix : nat; pa_from : f64; pa_to : f64 }.

(** The parameter at which the distance [d] is reached in segment [i]. *)
Definition param (E : Ext) (segs : list path_seg) (i : nat) (s : path_seg) (d : f64) : f64 :=
  fclamp f0 f1 (x_inv_arclen E s (fsub d (distance E segs i))).
(** The segment [i] ends before the distance [a], starts after [b] (by more
    than the tolerance 1e-9). *)
Definition before (E : Ext) (segs : list path_seg) (a : f64) (i : nat) : Prop :=
  fltb (distance E segs (S i)) (fsub a f_1em9) = true.
Definition after (E : Ext) (segs : list path_seg) (b : f64) (i : nat) : Prop :=
  fltb (fadd b f_1em9) (distance E segs i) = true.
(** A part goes from 0, or from where [a] is reached, to 1, or to where [b] is. *)
Definition from_a (E : Ext) (segs : list path_seg) (a : f64) (i : nat) (s : path_seg) (t : f64) : Prop :=
  (fltb (distance E segs i) a = false /\ t = f0) \/ (fltb (distance E segs i) a = true /\ t = param E segs i s a).
Definition to_b (E : Ext) (segs : list path_seg) (b : f64) (i : nat) (s : path_seg) (t : f64) : Prop :=
  (fltb b (distance E segs (S i)) = false /\ t = f1) \/ (fltb b (distance E segs (S i)) = true /\ t = param E segs i s b).

(** [keeps E segs a b ps]: [ps] are the parts of the outline between the
    distances [a] and [b]. *)
Record keeps (E : Ext) (segs : list path_seg) (a b : f64) (ps : list part) : Prop := {
  (* consecutive segments, in order *)
  kp_run : exists i, map pa_ix ps = seq i (List.length ps);
  kp_part : forall p, In p ps -> exists s, nth_error segs (pa_ix p) = Some s /\
    from_a E segs a (pa_ix p) s (pa_from p) /\ to_b E segs b (pa_ix p) s (pa_to p) /\
    fleb f0 (pa_from p) = true /\ fltb (pa_from p) (pa_to p) = true /\ fleb (pa_to p) f1 = true /\
    fltb (fadd (pa_from p) f_1em9) (pa_to p) = true /\
    ~ before E segs a (pa_ix p) /\ ~ after E segs b (pa_ix p);
  (* nothing is missing but parts of at most 1e-9 *)
  kp_all : forall i s u v, nth_error segs i = Some s -> ~ before E segs a i -> ~ after E segs b i ->
    from_a E segs a i s u -> to_b E segs b i s v -> fltb (fadd u f_1em9) v = true -> In (mkPart i u v) ps;
  (* cut only at the first and the last *)
  kp_first : forall k p, nth_error ps (S k) = Some p -> pa_from p = f0;
  kp_last : forall k p, nth_error ps k = Some p -> S k < List.length ps -> pa_to p = f1 }.

(** The curve of a part, and the outline drawn for parts: a move to the start
    of the first one, then each as one element. *)
Definition curve (E : Ext) (segs : list path_seg) (p : part) : path_seg :=
  x_subsegment E (nth (pa_ix p) segs (SLine (mkPoint f0 f0) (mkPoint f0 f0))) (pa_from p) (pa_to p).
Definition element (s : path_seg) : path_el :=
  match s with SLine _ b => LineTo b | SQuad _ b c => QuadTo b c | SCubic _ b c d => CurveTo b c d end.
Definition origin (s : path_seg) : point :=
  match s with SLine a _ | SQuad a _ _ | SCubic a _ _ _ => a end.
Definition target (s : path_seg) : point :=
  match s with SLine _ b => b | SQuad _ _ c => c | SCubic _ _ _ d => d end.
Definition drawn (E : Ext) (segs : list path_seg) (ps : list part) : list path_el :=
  match ps with
  | [] => []
  | p :: _ => MoveTo (origin (curve E segs p)) :: map (fun p => element (curve E segs p)) ps
  end.

(** The segments read back from such an outline: each begins where the one in
    front ends, which is its own beginning if the pieces fit together. *)
Definition begin_at (q : point) (s : path_seg) : path_seg :=
  match s with SLine _ b => SLine q b | SQuad _ b c => SQuad q b c | SCubic _ b c d => SCubic q b c d end.
Fixpoint following (q : point) (cs : list path_seg) : list path_seg :=
  match cs with [] => [] | c :: cs => begin_at q c :: following (target c) cs end.
Definition joined (cs : list path_seg) : list path_seg :=
  match cs with [] => [] | c :: cs => c :: following (target c) cs end.

(** ** What is assumed of kurbo *)
(** Lengths are finite and not negative, and do not add up beyond 2^1000. *)
Definition measured (E : Ext) (segs : list path_seg) : Prop :=
  (forall s, In s segs -> is_finite (x_arclen E s) = true /\ fleb f0 (x_arclen E s) = true) /\
  moderate (distance E segs (List.length segs)).
(** A length that is not positive is reached at the start (or nowhere), one
    that is at least the length of the segment at the end. *)
Definition arc_laws (E : Ext) : Prop :=
  (forall s l, fleb l f0 = true -> fltb f0 (x_inv_arclen E s l) = false) /\
  (forall s l, fltb f0 l = true -> fleb (x_arclen E s) l = true -> fleb f1 (x_inv_arclen E s l) = true).
(** Parts that begin at 0 begin where the segment begins, parts that end at 1
    end where it ends.  kurbo evaluates the curve there, so this holds up to
    rounding. *)
Definition end_laws (E : Ext) : Prop :=
  (forall s t, origin (x_subsegment E s f0 t) = origin s) /\
  (forall s t, target (x_subsegment E s t f1) = target s).
(** Each segment begins where the one in front ends. *)
Definition connected (segs : list path_seg) : Prop :=
  forall i s s', nth_error segs i = Some s -> nth_error segs (S i) = Some s' -> target s = origin s'.
