(** Model of the frame statistics in /repo/examples/with_winit/src/stats.rs:181-244
    and of the bar graph in :99-149.  Integer overflow panics (a build with
    overflow checks). *)
From Coq Require Import ZArith List.
From Verif Require Import F64 Kurbo Value.
Import ListNotations.
Open Scope list_scope.
Open Scope Z_scope.

(** stats.rs:11 *)
Definition window_size : Z := 100.
(** [u64::MAX], stats.rs:198, 220 *)
Definition u64_max : Z := 18446744073709551615.
(** checked [u64] arithmetic *)
Definition u64_add (a b : Z) : res Z := if a + b <=? u64_max then Ok (a + b) else Panic.
(** [a - b] on [u64], checked *)
Definition u64_sub (a b : Z) : res Z := if b <=? a then Ok (a - b) else Panic.

(** stats.rs:185-191 [Stats] *)
Record stats := mkStats { st_count : Z; st_sum : Z; st_min : Z; st_max : Z; st_samples : list Z }.
(** stats.rs:194-202 *)
Definition stats_new : stats := mkStats 0 0 u64_max 0 [].
(** stats.rs:219-222 *)
Definition clear_min_and_max (s : stats) : stats := mkStats (st_count s) (st_sum s) u64_max 0 (st_samples s).
(** stats.rs:224-239; [VecDeque] as a list, [pop_front] of an empty deque is [None] *)
Definition add_sample (s : stats) (micros : Z) : res stats :=
  let grow := st_count s <? window_size in
  let count := if grow then st_count s + 1 else st_count s in
  let oldest := if grow then None else hd_error (st_samples s) in
  let kept := if grow then st_samples s else tl (st_samples s) in
  let! sum := u64_add (st_sum s) micros in
  let samples := kept ++ [micros] in
  let! sum := match oldest with Some o => u64_sub sum o | None => Ok sum end in
  Ok (mkStats count sum (Z.min (st_min s) micros) (Z.max (st_max s) micros) samples).

(** stats.rs:14-19, 208-217 [Snapshot]; 0.001 is [flit 1 1000] *)
Record snapshot := mkSnapshot { sn_fps : f64; sn_time : f64; sn_min : f64; sn_max : f64 }.
(** 0.001, stats.rs:208-217 *)
Definition f_milli : f64 := flit 1 1000.
(** stats.rs:208-217 [Stats::snapshot] *)
Definition snapshot_of (s : stats) : snapshot :=
  let t := fmul (fdiv (f_of_Z (st_sum s)) (f_of_Z (st_count s))) f_milli in
  mkSnapshot (fdiv (f_of_Z 1000) t) t (fmul (f_of_Z (st_min s)) f_milli) (fmul (f_of_Z (st_max s)) f_milli).

(** stats.rs:242-244 [round_up] on [usize] *)
Definition round_up (n f : Z) : res Z :=
  let! m := u64_sub n 1 in
  let! k := u64_sub m (m mod f) in
  u64_add k f.
(** stats.rs:120-124: the scale of the graph; 1.33334 is [flit 133334 100000] *)
Definition display_max (s : snapshot) : res f64 :=
  if fltb (fmul (f_of_Z 3) (sn_time s)) (sn_max s)
  then let! n := round_up (f_to_usize (fmul (flit 133334 100000) (sn_time s))) 5 in Ok (f_of_Z n)
  else Ok (sn_max s).
(** stats.rs:128-129: the height of a bar, as a part of the graph's height *)
Definition bar_height (dmax : f64) (sample : Z) : f64 :=
  fdiv (fmin (fmul (f_of_Z sample) f_milli) dmax) dmax.
(** stats.rs:125-149: the heights of all bars *)
Definition bar_heights (s : stats) : res (list f64) :=
  let! dmax := display_max (snapshot_of s) in Ok (map (bar_height dmax) (st_samples s)).

(** The calls the viewer makes (with_winit/src/lib.rs). *)
Inductive stats_op := OpSample (micros : Z) | OpClear.
(** One call: stats.rs:219-239. *)
Definition stats_step (s : stats) (o : stats_op) : res stats :=
  match o with OpSample m => add_sample s m | OpClear => Ok (clear_min_and_max s) end.
(** The calls one after the other. *)
Fixpoint stats_run (s : stats) (ops : list stats_op) : res stats :=
  match ops with [] => Ok s | o :: ops => let! s := stats_step s o in stats_run s ops end.
