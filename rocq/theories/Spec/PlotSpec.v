(** What a plot of the posterior should show. *)
From Coq Require Import List Bool String Arith DecimalString.
From Verif.Model Require Import Base Xf Prior Context Plot.
Import ListNotations.
Local Open Scope nat_scope.

(** What the caller asked for: is this parameter plotted on its constrained scale? *)
Definition asked (c : choice) (n : string) : bool :=
  match c with All b => b | Some_of d => match od_get n d with Some b => b | None => true end end.
(** A sample on the scale asked for. *)
Definition on_scale (c : choice) (p : param) (x : list xf) : list xf := if asked c (p_name p) then x else d_inv (p_prior p) x.
Definition size (c : choice) (p : param) : nat := prod_list (if asked c (p_name p) then d_event (p_prior p) else d_uevent (p_prior p)).
(** The parameters and the indices of their components, in order. *)
Definition components (c : choice) (ps : list param) : list (param * nat) :=
  flat_map (fun p => map (pair p) (seq 0 (size c p))) ps.
(** Component [i] of the parameter in every particle. *)
Definition marginal (c : choice) (p : param) (i : nat) : list xf := map (fun x => nth i (on_scale c p x) NaN) (p_rows p).
(** A parameter whose samples (on both scales) have as many numbers as its prior says, and at least one. *)
Definition sized (p : param) : Prop :=
  forall x, In x (p_rows p) -> List.length x = prod_list (d_event (p_prior p)) /\ List.length (d_inv (p_prior p) x) = prod_list (d_uevent (p_prior p)).
(** The title of component [i]: the name, followed by the index in decimal if there are several. *)
Definition titled (c : choice) (p : param) (i : nat) (t : string) : Prop :=
  (size c p = 1 -> t = p_name p) /\
  (1 < size c p -> exists u, t = (p_name p ++ "_" ++ u)%string /\ option_map Nat.of_uint (NilZero.uint_of_string u) = Some i).
