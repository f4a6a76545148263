(** What a user expects of moving a prior to a device and of patching methods into a class (C114, C115). *)
From Coq Require Import String List Bool.
From Verif.Model Require Import Base Xf Mixin.
Import ListNotations.

(** A class whose constructor takes exactly its constrained arguments, each by its own name (Normal, Gamma, Beta, Uniform...). *)
Definition plain (c : dclass) : Prop :=
  k_choice c = [] /\ NoDup (k_keys c) /\ NoDup (k_required c ++ k_optional c) /\
  forall k, In k (k_keys c) <-> In k (k_required c ++ k_optional c).
(** The same arguments, on the device. *)
Definition same_on (device : string) (o o' : dobj) : Prop :=
  forall k, In k (k_keys (o_class o)) ->
    (exists t, get_arg o k = Ok (Some t) /\ get_arg o' k = Ok (Some (DTensor (dt_data t) device))) \/
    (get_arg o k = Ok None /\ get_arg o' k = Ok None).
(** Every argument of the object satisfies its constraint. *)
Definition admissible (o : dobj) : Prop :=
  forall k t x, In k (k_keys (o_class o)) -> get_arg o k = Ok (Some t) -> In x (dt_data t) -> k_check (o_class o) k x = true.
(** A class whose constructor takes one of several alternatives, all of which can be read from its objects. *)
Definition with_alternatives (c : dclass) : Prop :=
  (exists k k' r, k_choice c = k :: k' :: r) /\ NoDup (k_choice c) /\
  (forall k, In k (k_keys c) <-> In k (k_required c ++ k_choice c)) /\ k_optional c = [].
