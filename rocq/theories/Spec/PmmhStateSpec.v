(** Specification for C122: a table of recorded samples. *)
From Coq Require Import List String.
Import ListNotations.

(** The value under a name in a list of named values. *)
Fixpoint value_of {V} (n : string) (l : list (string * V)) : option V :=
  match l with [] => None | (k, v) :: r => if String.eqb n k then Some v else value_of n r end.

(** [table] has the names of the first entry, and under each name the values of all entries in their order. *)
Definition records {P} (entries : list (list (string * P))) (table : list (string * list P)) : Prop :=
  map fst table = map fst (hd [] entries) /\
  forall n, In n (map fst table) -> exists l, value_of n table = Some l /\ map Some l = map (value_of n) entries.

(** Every entry has the names of the first one, in any order and each once, with values of the same shape. *)
Definition regular {P} (shape : P -> list nat) (entries : list (list (string * P))) : Prop :=
  (forall e, In e entries -> NoDup (map fst e) /\ (forall n, In n (map fst e) <-> In n (map fst (hd [] entries)))) /\
  (forall e e' n p p', In e entries -> In e' entries -> value_of n e = Some p -> value_of n e' = Some p' -> shape p = shape p').
