(** What an interval policy should return. *)
From Coq Require Import Reals List ZArith.
Import ListNotations.

(** [v] is the entry with the smallest end at or after iteration [i]. *)
Definition covers (l : list (Z * R)) (i : nat) (v : R) : Prop :=
  exists k, In (k, v) l /\ (Z.of_nat i <= k)%Z /\ forall k' v', In (k', v') l -> (Z.of_nat i <= k')%Z -> (k <= k')%Z.
(** All intervals have ended before iteration [i]. *)
Definition all_ended (l : list (Z * R)) (i : nat) : Prop := forall k v, In (k, v) l -> (k < Z.of_nat i)%Z.
(** The items of a dictionary: no key twice. *)
Definition dictionary (l : list (Z * R)) : Prop := NoDup (map fst l).
