(** Model of pyfilter/inference/sequential/collectors.py on top of Sequential.v: what the collectors append to the
    state's tensor_tuples when [fit] is run. *)
From Coq Require Import Reals String List Bool Arith.
From Verif.Model Require Import Base Xf Weights Container Pmmh Sequential.
Import ListNotations.
Local Open Scope nat_scope.
Notation length := List.length.

(** [v @ M] for a vector and a matrix given by its rows (torch; RuntimeError if the sizes do not match).  A matrix with one
    column stands for a vector as well. *)
Definition width (rows : list (list xf)) : nat := match rows with [] => 0 | r :: _ => length r end.
Definition column (j : nat) (rows : list (list xf)) : list xf := map (fun r => nth j r NaN) rows.
Definition matmul (v : list xf) (rows : list (list xf)) : res (list xf) :=
  if length v =? length rows then Ok (map (fun j => xsum (zip_with xmul v (column j rows))) (seq 0 (width rows))) else Raise RuntimeError.

Section Collectors.
  Context {T F Y K : Type} (E : env T F Y K).

  (** collectors.py:14-43 Collector: the name, whether the function calls [state.normalized_weights()], and the function, given
      the shared objects of the algorithm, the observation and the state.  Simplification: apart from reading the
      weights the function changes nothing. *)
  Record collector : Type := Collector { k_name : string; k_reads : bool; k_fun : @world T -> Y -> @sstate F Y -> res (list xf) }.

  (** collectors.py:37-43 __call__.  [recs]: the part of state.tensor_tuples that belongs to collectors ("ess" and
      "parsed_data" are in [sstate]; a collector with one of these two names is not represented).  The new state of
      mh.py:136-138 shares the container of the old one, so there is one container for a whole run. *)
  Definition call (k : collector) (g : world) (y : Y) (s : sstate) (recs : container (list xf)) : res (container (list xf)) :=
    let! recs' := if ccontains recs (k_name k) then Ok recs else make_deque recs (k_name k) None MLNone in
    let! v := k_fun k g y s in
    append_to recs' (k_name k) v.
  (** base.py:75-76, for callbacks that are collectors. *)
  Fixpoint run_collectors (ks : list collector) (g : world) (y : Y) (s : sstate) (recs : container (list xf)) : res (sstate * container (list xf)) :=
    match ks with
    | [] => Ok (s, recs)
    | k :: r => let! recs' := call k g y s recs in run_collectors r g y (if k_reads k then read_weights E s else s) recs'
    end.
  (** base.py:64-80 step. *)
  Definition step_collecting (c : cfg) (ks : list collector) (a : alg) (y : Y) (s : sstate) (recs : container (list xf)) : alg * res (sstate * container (list xf)) :=
    let (a', r) := step_ E c a y s in
    (a', let! r' := r in
         let! (seen, recs') := run_collectors ks (a_world a') y (seen_by_callbacks r') recs in
         Ok (bump_iteration (match r' with Same _ => seen | Fresh _ new => new end), recs')).
  (** base.py:98-100. *)
  Fixpoint run_collecting (c : cfg) (ks : list collector) (a : alg) (ys : list Y) (s : sstate) (recs : container (list xf)) : alg * res (sstate * container (list xf)) :=
    match ys with
    | [] => (a, Ok (s, recs))
    | y :: r =>
        let (a', x) := step_collecting c ks a y s recs in
        match x with
        | Raise e => (a', Raise e)
        | Ok (s', recs') => run_collecting c ks a' r s' recs'
        end
    end.
  (** base.py:93-102 fit. *)
  Definition fit_collecting (c : cfg) (ks : list collector) (a : alg) (drawn placed : list T) (ys : list Y) : alg * res (sstate * container (list xf)) :=
    let (a', r) := initialize_alg E c a drawn placed in
    match r with Raise e => (a', Raise e) | Ok s => run_collecting c ks a' ys s empty_container end.

  (** [new_state.normalized_weights() @ rows]. *)
  Definition weigh (s : sstate) (rows : list (list xf)) : res (list xf) :=
    let! (p, _) := normalized_weights E s in matmul p rows.

  (** collectors.py:46-60 MeanCollector; [mean]: latest_state.get_mean() of one slot (one number for each component of the
      latent state). *)
  Definition mean_collector (mean : F -> list xf) : collector :=
    Collector "filter_means" true (fun _ _ s => weigh s (map (fun f => mean (fst f)) (s_fs s))).

  (** collectors.py:93-111 ParameterPosterior; [params]: one slot's part of ssm.concat_parameters(constrained=...), which reads
      the parameters in the context. *)
  Definition parameter_posterior (params : T -> list xf) : collector :=
    Collector "parameter_means" true (fun g _ s => weigh s (map params (g_ctx g))).

  (** collectors.py:63-90 Standardizer.  [transformed]: the observation density is a TransformedDistribution; [residual]: the
      observation put through the inverse transforms for each state particle of one slot (a single one if the filter has
      none); [particles]: the log weights of the state particles of one slot ([None]: not a particle filter).
      Observations are numbers.  The tensors of a particle filter have the state particles in the first and the slots in
      the last dimension, so [.sum(dim=-1)] gives one number for each state particle.  [N]: number of state particles.
      The normalisation's effect on the stored log weights of the state particles is left out. *)
  Fixpoint normalize_all (ws : list (list xf)) : res (list (list xf)) :=
    match ws with
    | [] => Ok []
    | w :: r => let! (p, _) := normalize (e_lowest E) w in let! t := normalize_all r in Ok (p :: t)
    end.
  Definition standardizer (transformed : bool) (residual : Y -> F -> list xf) (particles : option (F -> list xf)) : collector :=
    Collector "standardized" true (fun _ y s =>
      if transformed then
        let residuals := map (fun f => residual y (fst f)) (s_fs s) in
        match particles with
        | None => weigh s residuals
        | Some log_w =>
            let! norm := normalize_all (map (fun f => log_w (fst f)) (s_fs s)) in
            let products := zip_with (zip_with xmul) norm residuals in
            let N := width products in
            weigh s (map (fun i => [xsum (column i products)]) (seq 0 N))
        end
      else Raise NotImplementedError).
End Collectors.
Arguments collector : clear implicits.
