(** pyfilter/inference/prior.py:161-225: moving a prior to a device, and patching the methods of [PriorMixin] into
    torch.distributions.Distribution. *)
From Coq Require Import String List Bool Arith.
From Verif.Model Require Import Base Xf.
Import ListNotations.
Local Open Scope nat_scope.

(** * Distribution objects *)
(** A tensor: its numbers, flattened (as in Model/Prior.v; at most one dimension), and its device. *)
Record dtensor : Type := DTensor { dt_data : list xf; dt_dev : string }.
(** A torch (pyro) distribution class.  [k_keys]: arg_constraints.keys().  The parameters of its constructor, by name:
    [k_required] without default, [k_optional] with default None, [k_choice] alternatives of which exactly one has to be given
    (covariance_matrix, precision_matrix or scale_tril; probs or logits).  [k_check]: the constraint on an argument, elementwise.
    [k_derive k k' x]: the lazy property [k] computed from the alternative [k'] that was given.  Constructor arguments that are
    not tensors (base_distribution of Independent) are named only. *)
Record dclass : Type := DClass {
  k_name : string; k_keys : list string; k_required : list string; k_optional : list string; k_choice : list string;
  k_check : string -> xf -> bool; k_derive : string -> string -> list xf -> list xf
}.
(** [o_dict]: its __dict__, as far as the arguments go.  [o_validate]: self._validate_args. *)
Record dobj : Type := DObj { o_class : dclass; o_dict : odict (option dtensor); o_validate : bool }.

Definition mem (k : string) (l : list string) : bool := existsb (String.eqb k) l.
(** torch.broadcast_tensors on flattened tensors of at most one dimension: the common size, or RuntimeError. *)
Fixpoint common_size (l : list nat) : res nat :=
  match l with
  | [] => Ok 1
  | n :: r => let! m := common_size r in if n =? m then Ok m else if n =? 1 then Ok m else if m =? 1 then Ok n else Raise RuntimeError
  end.
Definition expand (n : nat) (t : dtensor) : dtensor := match dt_data t with [x] => DTensor (repeat x n) (dt_dev t) | _ => t end.
Definition broadcast_all (args : odict dtensor) : res (odict dtensor) :=
  let! n := common_size (map (fun p => List.length (dt_data (snd p))) args) in Ok (map (fun p => (fst p, expand n (snd p))) args).
(** torch.distributions.Distribution.__init__ (validate_args given or the default of the class, [dflt]) after the constructor of
    the class has stored the arguments; lazy properties are not checked.  Classes with alternatives do not broadcast here (the
    sizes of matrices are not represented). *)
Definition checks (c : dclass) (d : odict (option dtensor)) : bool :=
  forallb (fun k => match od_get k d with Some (Some t) => forallb (k_check c k) (dt_data t) | _ => true end) (k_keys c).
Definition construct (c : dclass) (dflt : bool) (validate : option bool) (args : odict dtensor) : res dobj :=
  if negb (forallb (fun p => mem (fst p) (k_required c ++ k_optional c ++ k_choice c)) args) then Raise TypeError
  else if negb (forallb (fun k => od_mem k args) (k_required c)) then Raise TypeError
  else
    let given := filter (fun k => od_mem k args) (k_choice c) in
    if negb (match k_choice c with [] => true | _ => List.length given =? 1 end) then Raise ValueError
    else
      let! args := match k_choice c with [] => broadcast_all args | _ => Ok args end in
      let d := map (fun k => (k, od_get k args)) (k_required c ++ k_optional c ++ given) in
      let v := match validate with Some b => b | None => dflt end in
      if v && negb (checks c d) then Raise ValueError else Ok (DObj c d v).
(** getattr(self, arg_name): an attribute, or a lazy property. *)
Definition get_arg (o : dobj) (k : string) : res (option dtensor) :=
  match od_get k (o_dict o) with
  | Some v => Ok v
  | None =>
      if mem k (k_choice (o_class o)) then
        match filter (fun k' => od_mem k' (o_dict o)) (k_choice (o_class o)) with
        | k' :: _ => match od_get k' (o_dict o) with Some (Some t) => Ok (Some (DTensor (k_derive (o_class o) k k' (dt_data t)) (dt_dev t))) | _ => Raise AttributeError end
        | [] => Raise AttributeError
        end
      else Raise AttributeError
  end.

(** * prior.py:161-185 to *)
(** prior.py:175-181, the loop. *)
Fixpoint moved_args (o : dobj) (device : string) (keys : list string) : res (odict dtensor) :=
  match keys with
  | [] => Ok []
  | k :: r =>
      let! parameter := get_arg o k in
      match parameter with
      | None => moved_args o device r
      | Some t => let! params := moved_args o device r in Ok ((k, DTensor (dt_data t) device) :: params)
      end
  end.
(** prior.py:173: [_get_checked_instance] of the own class makes an empty instance; prior.py:183 runs its constructor.  The
    arguments are collected in the order of the keys, which are distinct. *)
Definition to_device (dflt : bool) (o : dobj) (device : string) : res dobj :=
  let! params := moved_args o device (k_keys (o_class o)) in construct (o_class o) dflt None params.
(** prior.py:187-192 cuda *)
Definition cuda (dflt : bool) (o : dobj) : res dobj := to_device dflt o "cuda:0".

(** * prior.py:195-225 patch *)
(** A python class: its __dict__ (methods are numbers) and the attributes it inherits. *)
Record pyclass : Type := PyClass { y_id : nat; y_dict : odict nat; y_inherited : odict nat }.
Definition has_attr (c : pyclass) (k : string) : bool := od_mem k (y_dict c) || od_mem k (y_inherited c).
Definition lookup (c : pyclass) (k : string) : option nat := match od_get k (y_dict c) with Some m => Some m | None => od_get k (y_inherited c) end.
(** methodname.startswith("_") *)
Definition private (k : string) : bool := prefix "_" k.
(** prior.py:210-216, the loop over the names in [sub_cls.__dict__]. *)
Fixpoint patch_names (sub : pyclass) (names : list string) (c : pyclass) : pyclass :=
  match names with
  | [] => c
  | k :: r =>
      if private k || has_attr c k then patch_names sub r c
      else patch_names sub r (match lookup sub k with Some m => PyClass (y_id c) (od_set k m (y_dict c)) (y_inherited c) | None => c end)
  end.
(** prior.py:199-218: [applied] is the list [applied_patches] of the module. *)
Definition patch (applied : list nat) (sub c : pyclass) : list nat * pyclass :=
  if existsb (Nat.eqb (y_id sub)) applied then (applied, c)
  else (applied ++ [y_id sub], patch_names sub (od_keys (y_dict sub)) c).
