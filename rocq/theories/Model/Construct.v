(** Model of the construction of the sequential algorithms: __init__ of SMC2, NESS, FixedWidthNESS and of the combined
    algorithms NESSMC2 and SMC2FW (pyfilter/inference/sequential/{base,smc2,ness,nessmc2,smc2fw}.py) and of their kernels
    (kernels/{base,mh}.py): which arguments reach which object, and which calls are refused.

    The batch shapes that the constructors set on filter and context (base.py:33-36) are in FilterConfig.v and Context.v. *)
From Coq Require Import String List Arith Bool Reals.
From Verif.Model Require Import Base.
Import ListNotations.
Local Open Scope nat_scope.
Local Open Scope string_scope.

(** Arguments: None, a number, or some other object, known by a name. *)
Inductive pyval : Type := PNone | PNum (r : R) | PObj (name : string).
Definition kwargs : Type := odict pyval.

(** Python's binding of a call to a signature: [params] the names with their defaults, [varkw] whether the signature ends in
    [**kwargs], [pos] and [kws] the positional and keyword arguments.  The result is the value of every parameter and what
    is left for [**kwargs]; a call that does not fit is a TypeError. *)
Definition is_name (names : list string) (k : string) : bool := existsb (String.eqb k) names.
Fixpoint fill (params : list (string * option pyval)) (given : kwargs) : res kwargs :=
  match params with
  | [] => Ok []
  | (k, d) :: r =>
      let! v := match od_get k given with
                | Some v => Ok v
                | None => match d with Some v => Ok v | None => Raise TypeError end
                end in
      let! rest := fill r given in
      Ok ((k, v) :: rest)
  end.
Definition bind_call (params : list (string * option pyval)) (varkw : bool) (pos : list pyval) (kws : kwargs) : res (kwargs * kwargs) :=
  if (List.length params <? List.length pos)%nat then Raise TypeError
  else
    let taken := combine (map fst params) pos in
    if existsb (fun k => is_name (map fst taken) k) (map fst kws) then Raise TypeError
    else
      let extra := filter (fun kv => negb (is_name (map fst params) (fst kv))) kws in
      if negb varkw && (0 <? List.length extra)%nat then Raise TypeError
      else
        let! env := fill params (app taken kws) in
        Ok (env, extra).
(** Keywords written in the call together with a dictionary passed by [**]: a name in both is a TypeError. *)
Definition with_star (written star : kwargs) : res kwargs :=
  if existsb (fun k => is_name (map fst written) k) (map fst star) then Raise TypeError else Ok (app written star).

Definition get (env : kwargs) (k : string) : pyval := match od_get k env with Some v => v | None => PNone end.
(** [kwargs.pop(k, default)]. *)
Definition pop (kws : kwargs) (k : string) (default : pyval) : pyval * kwargs :=
  (match od_get k kws with Some v => v | None => default end, od_del k kws).

(** An algorithm: its class, its arguments, the arguments of its kernel, and the context it works with. *)
Record algo : Type := Algo { o_class : string; o_args : kwargs; o_kernel : kwargs; o_context : pyval }.

Section Construct.
  (** The innermost active context, if there is one. *)
  Variable active : option pyval.

  (** inference/base.py:18-32 BaseAlgorithm.__init__ with context.py:87-96 get_context. *)
  Definition resolve (context : pyval) : res pyval :=
    match context with
    | PNone => match active with Some c => Ok c | None => Raise GenericException end
    | c => Ok c
    end.

  (** kernels/base.py:15-23 BaseKernel.__init__. *)
  Definition base_kernel_params : list (string * option pyval) := [("resampling", Some (PObj "systematic"))].
  (** kernels/mh.py:20-51 ParticleMetropolisHastings.__init__. *)
  Definition pmh_params : list (string * option pyval) :=
    [("num_steps", Some (PNum 1)); ("proposal", Some PNone); ("distance_threshold", Some PNone);
     ("acceptance_threshold", Some (PNum (2 / 10))); ("max_increases", Some (PNum 5))].
  Definition particle_mh (kws : kwargs) : res kwargs :=
    let! (env, extra) := bind_call pmh_params true [] kws in
    let! (env', _) := bind_call base_kernel_params false [] extra in
    Ok (app env env').

  (** smc2.py:18-48 SMC2.__init__. *)
  Definition smc2_params : list (string * option pyval) :=
    [("filter_", None); ("particles", None); ("threshold", Some (PNum (2 / 10))); ("kernel", Some PNone);
     ("max_increases", Some (PNum 5)); ("context", Some PNone)].
  Definition smc2 (pos : list pyval) (kws : kwargs) : res algo :=
    let! (env, extra) := bind_call smc2_params true pos kws in
    let! c := resolve (get env "context") in
    let! kernel_kws := with_star [("proposal", get env "kernel"); ("max_increases", get env "max_increases")] extra in
    let! kernel := particle_mh kernel_kws in
    Ok (Algo "SMC2" env kernel c).

  (** ness.py:20-39 BaseOnlineAlgorithm.__init__; the kernel is OnlineKernel(kernel or NonShrinkingKernel(), discrete). *)
  Definition online_params : list (string * option pyval) :=
    [("filter_", None); ("particles", None); ("kernel", Some PNone); ("discrete", Some (PObj "False")); ("context", Some PNone)].
  Definition online (class : string) (own : kwargs) (pos : list pyval) (kws : kwargs) : res algo :=
    let! (env, _) := bind_call online_params false pos kws in
    let! c := resolve (get env "context") in
    let kernel := match get env "kernel" with PNone => PObj "NonShrinkingKernel" | k => k end in
    Ok (Algo class (app own env) [("kernel", kernel); ("discrete", get env "discrete")] c).
  (** ness.py:70-81 NESS.__init__, 93-105 FixedWidthNESS.__init__. *)
  Definition ness_params : list (string * option pyval) :=
    [("filter_", None); ("particles", None); ("threshold", Some (PNum (9 / 10)))].
  Definition ness (pos : list pyval) (kws : kwargs) : res algo :=
    let! (env, extra) := bind_call ness_params true pos kws in
    online "NESS" [("threshold", get env "threshold")] [get env "filter_"; get env "particles"] extra.
  Definition fixed_width_params : list (string * option pyval) :=
    [("filter_", None); ("particles", None); ("block_len", Some (PNum 125))].
  Definition fixed_width (pos : list pyval) (kws : kwargs) : res algo :=
    let! (env, extra) := bind_call fixed_width_params true pos kws in
    online "FixedWidthNESS" [("block_len", get env "block_len")] [get env "filter_"; get env "particles"] extra.

  (** base.py:113-139 CombinedSequentialParticleAlgorithm.__init__: [make_first] and [make_second] are called with three
      positional arguments (lines 132-133). *)
  Definition combined (make_first make_second : list pyval -> kwargs -> res algo) (filter_ num_particles switch : pyval)
    (first_kw second_kw : kwargs) (context : pyval) : res (algo * algo * pyval) :=
    let! _ := resolve context in
    let! first := make_first [filter_; context; num_particles] first_kw in
    let! second := make_second [filter_; context; num_particles] second_kw in
    Ok (first, second, switch).

  (** nessmc2.py:37-39 make_first, 41-45 make_second. *)
  Definition make_params : list (string * option pyval) := [("filter_", None); ("context", None); ("particles", None)].
  Definition make_first (pos : list pyval) (kws : kwargs) : res algo :=
    let! (env, kw) := bind_call make_params true pos kws in
    let (threshold, kw) := pop kw "threshold" (PNum (5 / 10)) in
    let! kw := with_star [("threshold", threshold); ("context", get env "context")] kw in
    smc2 [get env "filter_"; get env "particles"] kw.
  Definition make_second (pos : list pyval) (kws : kwargs) : res algo :=
    let! (env, kw) := bind_call make_params true pos kws in
    let (kernel, kw) := pop kw "kernel" (PObj "ShrinkingKernel") in
    let (threshold, kw) := pop kw "threshold" (PNum (95 / 100)) in
    let! kw := with_star [("kernel", kernel); ("threshold", threshold); ("context", get env "context")] kw in
    ness [get env "filter_"; get env "particles"] kw.
  (** smc2fw.py:14-15 make_second: a signature with two positional parameters. *)
  Definition make_second_fw_params : list (string * option pyval) := [("filter_", None); ("particles", None)].
  Definition make_second_fw (pos : list pyval) (kws : kwargs) : res algo :=
    let! (env, kw) := bind_call make_second_fw_params true pos kws in
    fixed_width [get env "filter_"; get env "particles"] kw.

  (** nessmc2.py:16-35 NESSMC2.__init__, which passes no context on (line 35); SMC2FW inherits it.  [None] for the
      dictionaries is an empty one (base.py:132-133). *)
  Definition nessmc2 (filter_ particles switch : pyval) (smc2_kw ness_kw : kwargs) : res (algo * algo * pyval) :=
    combined make_first make_second filter_ particles switch smc2_kw ness_kw PNone.
  Definition smc2fw (filter_ particles switch : pyval) (smc2_kw ness_kw : kwargs) : res (algo * algo * pyval) :=
    combined make_first make_second_fw filter_ particles switch smc2_kw ness_kw PNone.
End Construct.
