(** Numbers that are written as integers. *)
From Coq Require Import ZArith List String.
From Verif Require Import F64 Schema.
Import ListNotations.

(** [alike j j']: [j'] is [j], where some numbers are written as integers, at
    any depth. *)
Inductive alike : json -> json -> Prop :=
| al_same j : alike j j
| al_number n : alike (JFloat (f_of_Z n)) (JInt n)
| al_arr l l' : Forall2 alike l l' -> alike (JArr l) (JArr l')
| al_obj fs fs' : Forall2 (fun m m' => fst m = fst m' /\ alike (snd m) (snd m')) fs fs' -> alike (JObj fs) (JObj fs').
