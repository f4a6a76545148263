(** Model of pyfilter/inference/batch/mcmc/state.py (PMMHResult) and pyfilter/inference/state.py (FilterAlgorithmState): the chain
    that is recorded, and saving and loading.  A parameter is the tensor of its values for all chains, of any type [P] with a
    shape; the tensor of its samples is the list of those values along the dimension stacked over (stack_dim=1, the one
    [PMMH.initialize] uses, pmmh.py:74; the batch dimension of the chains is the one before it). *)
From Coq Require Import List Bool Arith String.
From Verif.Model Require Import Base Container Result.
Import ListNotations.

Section PmmhState.
  Context {P : Type}.
  Variable shape : P -> list nat.

  (** mcmc/state.py:26: a clone of every parameter, the only sample so far. *)
  Definition first_samples (initial : odict P) : odict (list P) := map (fun nv => (fst nv, [snd nv])) initial.

  (** mcmc/state.py:28-38 update_chain.  [torch.cat] wants the shapes of the earlier samples; clone and cat make new tensors, so the
      values at the time of the call are recorded.  On an exception the samples stay as they are at that point. *)
  Fixpoint update_chain (samples : odict (list P)) (sample : odict P) : odict (list P) * option exn :=
    match sample with
    | [] => (samples, None)
    | (n, p) :: rest =>
        match od_get n samples with
        | None => (samples, Some KeyError)
        | Some sub_sample =>
            if forallb (fun q => if list_eq_dec Nat.eq_dec (shape q) (shape p) then true else false) sub_sample
            then update_chain (od_set n (sub_sample ++ [p])%list samples) rest
            else (samples, Some RuntimeError)
        end
    end.
  (** pmmh.py:101: one call per iteration. *)
  Fixpoint record_chain (samples : odict (list P)) (iterations : list (odict P)) : odict (list P) * option exn :=
    match iterations with
    | [] => (samples, None)
    | s :: rest => match update_chain samples s with (samples, None) => record_chain samples rest | r => r end
    end.

  (** inference/state.py:18-27 and mcmc/state.py:14-26: the containers of BaseResult and of FilterAlgorithmState, and the chain. *)
  Record pmmh_result : Type := PmmhResult { m_tt : container addr; m_filter : result; m_samples : odict (list P) }.
  (** mcmc/state.py:24-26, pyfilter/state.py:13-19 (BaseResult): no tensor tuples. *)
  Definition new_pmmh_result (initial : odict P) (filter_result : result) : pmmh_result :=
    PmmhResult empty_container filter_result (first_samples initial).
  (** The dictionary: "tensor_tuples" and "filter_state". *)
  Record pmmh_saved : Type := PmmhSaved { p_tt : odict (list addr); p_filter : saved }.

  (** inference/state.py:39-43 state_dict on top of pyfilter/state.py:32-37; PMMHResult does not override it. *)
  Definition pmmh_state_dict (h : heap) (m : pmmh_result) : res (heap * pmmh_saved) :=
    let! tup := Container.state_dict (shape_at h) (m_tt m) in
    let (h, tup) := copy_dict h tup in
    let! (h, d) := res_state_dict h (m_filter m) in
    Ok (h, PmmhSaved tup d).
  (** inference/state.py:45-47 load_state_dict on top of pyfilter/state.py:39-47. *)
  Definition pmmh_load (h : heap) (m : pmmh_result) (d : pmmh_saved) : res (heap * pmmh_result * pmmh_saved) :=
    let '(tup, rest, err) := Container.load_state_dict (m_tt m) (p_tt d) in
    match err with
    | Some e => Raise e
    | None => let! (h, r, df) := res_load h (m_filter m) (p_filter d) in
              Ok (h, PmmhResult tup r (m_samples m), PmmhSaved rest df)
    end.
End PmmhState.
