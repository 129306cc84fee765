(** JSON values whose objects have the same members in another order. *)
From Coq Require Import List String Permutation.
From Verif Require Import Schema.
Import ListNotations.

(** [shuffled j j']: [j'] is [j] with the members of its objects in another
    order, at any depth.  No object that is shuffled has two members of one
    name. *)
Inductive shuffled : json -> json -> Prop :=
| shuf_same j : shuffled j j
| shuf_arr l l' : shuffled_list l l' -> shuffled (JArr l) (JArr l')
| shuf_obj fs fs1 fs' : NoDup (map fst fs) -> shuffled_members fs fs1 -> Permutation fs1 fs' -> shuffled (JObj fs) (JObj fs')
with shuffled_list : list json -> list json -> Prop :=
| shufl_nil : shuffled_list [] []
| shufl_cons v v' l l' : shuffled v v' -> shuffled_list l l' -> shuffled_list (v :: l) (v' :: l')
with shuffled_members : list (string * json) -> list (string * json) -> Prop :=
| shufm_nil : shuffled_members [] []
| shufm_cons k v v' fs fs' : shuffled v v' -> shuffled_members fs fs' -> shuffled_members ((k, v) :: fs) ((k, v') :: fs').
