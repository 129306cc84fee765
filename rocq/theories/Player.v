(** Model of the playback clock in /repo/examples/scenes/src/lottie.rs:97-119
    (the same expression is in picking.rs:51-53). *)
From Coq Require Import ZArith.
From Verif Require Import F64 Kurbo Value Animated.

(** [Duration::as_secs_f64] *)
Definition secs_f64 (secs nanos : Z) : f64 := fadd (f_of_Z secs) (fdiv (f_of_Z nanos) (f_of_Z 1000000000)).
(** lottie.rs:106-108 *)
Definition playback_frame (c : composition) (elapsed : f64) : f64 :=
  fadd (frem (fmul elapsed (co_frame_rate c)) (fsub (co_out c) (co_in c))) (co_in c).
