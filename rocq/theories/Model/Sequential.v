(** Model of pyfilter/inference/sequential: base.py, ness.py, smc2.py, nessmc2.py, state.py, kernels/mh.py,
    kernels/online.py.

    There are [B] parameter particles ("slots").  The context is the list of its rows of unconstrained parameters
    (Context.v: C40-C43), the filter result the list of the results of the slots: latest state and accumulated log
    likelihood (Result.v; the recorded moments are left out).  Everything random or external takes the position in the
    random number stream as its first argument. *)
From Coq Require Import Reals List Bool Arith.
From Verif.Model Require Import Base Xf Weights Pmmh.
Import ListNotations.
Local Open Scope nat_scope.

(** [T]: a row of parameters; [F]: latest state of the filter of one slot; [Y]: an observation; [K]: a proposal
    distribution. *)
Record env {T F Y K : Type} : Type := Env {
  (** The lowest finite number of the dtype (Weights.v); the number of parameter particles (base.py:31). *)
  e_lowest : R; e_B : nat;
  (** filter_.initialize() and filter_.filter(y, latest, result=...) for one slot: position in the random numbers, number
      of state particles, slot, the parameters the model was built from, the parameters now in the context (models
      may refer to the context's parameters or to values computed from them).  [e_step] returns the new latest state
      and its log likelihood. *)
  e_init : nat -> nat -> nat -> T -> T -> F;
  e_step : nat -> nat -> nat -> T -> T -> Y -> F -> F * xf;
  (** kernels/base.py:23: resampling of normalised weights; kernels/jittering.py; online.py:38-42 bernoulli_. *)
  e_resample : nat -> list xf -> list nat;
  e_jitter : nat -> list T -> list xf -> list nat -> list T;
  e_coins : nat -> list bool;
  (** The proposal of kernels/mh.py (Pmmh.v), sampling from its distribution (for all slots), the uniform numbers of
      run_pmmh, the prior density. *)
  e_build : list T -> list xf -> list (F * xf) -> K;
  e_log_prob : K -> list T -> list xf;
  e_exchange : K -> K -> list bool -> K;
  e_sample : nat -> K -> list T;
  e_uniforms : nat -> list R;
  e_log_prior : T -> xf;
  (** mh.py:97 [(new_params - old_params).norm(dim=0, p=INFTY).mean()]. *)
  e_distance : list T -> list T -> R }.
Arguments env : clear implicits.

(** [x[indices]]; an index out of range is an IndexError. *)
Fixpoint gather {A} (l : list A) (indices : list nat) : res (list A) :=
  match indices with
  | [] => Ok []
  | i :: r => match nth_error l i with
              | Some x => let! t := gather l r in Ok (x :: t)
              | None => Raise IndexError
              end
  end.

Section Sequential.
  Context {T F Y K : Type} (E : env T F Y K).

  (** The objects an algorithm shares: rows of the context, rows the filter's model was built from, number of state
      particles (filters/particle/base.py:80), position in the random numbers.  [g_updates] is not
      in the code: it counts the calls of [self._kernel.update]. *)
  Record world : Type := World { g_ctx : list T; g_model : list T; g_np : nat; g_rnd : nat; g_updates : nat }.

  (** state.py:8-69 SequentialAlgorithmState: w, filter_state, tensor_tuples["ess"], current_iteration; state.py:72-95
      SMC2State: tensor_tuples["parsed_data"] as well ([None]: not an SMC2State). *)
  Record sstate : Type := St { s_w : list xf; s_fs : list (F * xf); s_ess : list xf; s_data : option (list Y); s_iter : nat }.
  Definition with_w (w : list xf) (s : sstate) : sstate := St w (s_fs s) (s_ess s) (s_data s) (s_iter s).
  Definition with_fs (fs : list (F * xf)) (s : sstate) : sstate := St (s_w s) fs (s_ess s) (s_data s) (s_iter s).
  Definition tick (k : nat) (g : world) : world := World (g_ctx g) (g_model g) (g_np g) (g_rnd g + k) (g_updates g).
  Definition count_update (g : world) : world := World (g_ctx g) (g_model g) (g_np g) (g_rnd g) (S (g_updates g)).

  (** base.py:59, 62 filter.initialize(), initialize_with_result: log likelihood zero (filters/particle/base.py:101). *)
  Definition init_result (rnd np : nat) (built now : list T) : list (F * xf) :=
    map (fun p => (e_init E rnd np (fst p) (fst (snd p)) (snd (snd p)), Fin 0)) (combine (seq 0 (List.length now)) (combine built now)).
  (** ness.py:56, smc2.py:56 self.filter.filter(...): new latest states and their log likelihoods. *)
  Definition corrections (rnd np : nat) (built now : list T) (y : Y) (fs : list (F * xf)) : list (F * xf) :=
    map (fun p => e_step E rnd np (fst p) (fst (fst (snd p))) (snd (fst (snd p))) y (fst (snd (snd p))))
        (combine (seq 0 (List.length fs)) (combine (combine built now) fs)).
  (** filters/result.py:119-133 FilterResult.append. *)
  Definition append_result (fs new : list (F * xf)) : list (F * xf) := zip_with (fun o n => (fst n, xadd (snd o) (snd n))) fs new.
  (** filters/base.py:140-158 batch_filter: one random position for the initial state, one for each observation. *)
  Fixpoint filter_on (rnd np : nat) (built now : list T) (data : list Y) (fs : list (F * xf)) : list (F * xf) :=
    match data with
    | [] => fs
    | y :: r => filter_on (S rnd) np built now r (append_result fs (corrections rnd np built now y fs))
    end.
  Definition batch_filter (rnd np : nat) (built now : list T) (data : list Y) : list (F * xf) :=
    filter_on (S rnd) np built now data (init_result rnd np built now).

  (** state.py:22-25, 87-88: the constructor; get_ess modifies its argument. *)
  Definition new_state (w : list xf) (fs : list (F * xf)) (data : option (list Y)) : res sstate :=
    let! (ess, w') := get_ess (e_lowest E) w false in Ok (St w' fs [ess] data 0).
  (** state.py:35-44 append, together with the filter step before it. *)
  Definition absorb (g : world) (y : Y) (s : sstate) : world * res sstate :=
    let c := corrections (g_rnd g) (g_np g) (g_model g) (g_ctx g) y (s_fs s) in
    (tick 1 g, let! (ess, w') := get_ess (e_lowest E) (zip_with xadd (s_w s) (map snd c)) false in
               Ok (St w' (append_result (s_fs s) c) (s_ess s ++ [ess]) (s_data s) (s_iter s))).

  (** torch.isfinite negated, any. *)
  Definition nonfinite (w : list xf) : bool := existsb (fun x => negb (xisfinite x)) w.
  (** [ess[-1]]; the deque is never empty (state.py:24). *)
  Definition newest (ess : list xf) : xf := last ess NaN.
  (** torch.zeros_like(w), w.fill_(0.0). *)
  Definition zeros (w : list xf) : list xf := map (fun _ => Fin 0) w.

  (** * kernels/online.py:26-53.  The mixture of line 44 with numbers zero and one is a choice (finite values).  The
      context accepts every unconstrained value (C41). *)
  Definition online_update (discrete : bool) (g0 : world) (s : sstate) : world * res sstate :=
    let g := count_update g0 in
    match normalize (e_lowest E) (s_w s) with
    | Raise e => (g, Raise e)
    | Ok (weights, w') =>
        let r := g_rnd g in
        let indices := e_resample E r weights in
        let jittered := e_jitter E (r + 1) (g_ctx g) weights indices in
        match gather (g_ctx g) indices, gather (s_fs s) indices with
        | Ok rows, Ok fs =>
            let final := if discrete then where_ (e_coins E (r + 2)) jittered rows else jittered in
            (World final final (g_np g) (r + 3) (g_updates g), Ok (with_w (zeros (s_w s)) (with_fs fs s)))
        | _, _ => (g, Raise IndexError)
        end
    end.

  (** * kernels/mh.py *)
  (** mh.py:42-50 and smc2.py:42: threshold policy of SMC2 (threshold.py: Threshold.v), number of steps, acceptance threshold, number of
      increases allowed, distance threshold. *)
  Record smc2_cfg : Type := Smc2Cfg { c_threshold : nat -> R; c_steps : nat; c_accept : R; c_max : nat; c_dist : option R }.

  (** mh.py:88 [to_accept.float().mean()]. *)
  Definition accepted_fraction (acc : list bool) : R := (INR (count_occ bool_dec acc true) / INR (List.length acc))%R.

  (** mh.py:74-102: the loop; [n]: steps left, [i]: the loop variable.  Result: context rows, results, random position, the
      acceptance masks of the steps performed (not in the code), whether line 91 returned. *)
  Fixpoint pmmh_moves (c : smc2_cfg) (np : nat) (data : list Y) (k : K) (old : list T) (n i rnd : nat) (prev rate : R)
      (ctx : list T) (fs : list (F * xf)) : list T * list (F * xf) * nat * list (list bool) * bool :=
    match n with
    | 0 => (ctx, fs, rnd, [], false)
    | S m =>
        let (ch, acc) := run_pmmh snd (e_log_prior E) (e_build E) (e_log_prob E) (e_exchange E) (e_sample E rnd k)
                           (fun rows => batch_filter (rnd + 1) np rows rows data) (map (fun _ => Fin 0) fs) (e_uniforms E (rnd + 2 + List.length data)) false
                           (Chains ctx fs k) in
        let rnd' := rnd + 3 + List.length data in
        let rate' := ((accepted_fraction acc + INR i * rate) / INR (S i))%R in
        if Rlt_dec rate' (c_accept c) then (positions ch, results ch, rnd', [acc], true)
        else
          let go prev' :=
            let '(ctx', fs', r', accs, low) := pmmh_moves c np data k old m (S i) rnd' prev' rate' (positions ch) (results ch) in
            (ctx', fs', r', acc :: accs, low) in
          match c_dist c with
          | None => go prev
          | Some th =>
              let d := e_distance E (positions ch) old in
              if Rle_dec (Rabs (d - prev)) (th * prev) then (positions ch, results ch, rnd', [acc], false) else go d
          end
    end.

  (** What [_step] returns: the object it was given, or a new one (mh.py:136); in the latter case the old one is still
      what the callbacks get (base.py:76). *)
  Inductive stepped : Type := Same (s : sstate) | Fresh (old new : sstate).
  Definition result_of (r : stepped) : sstate := match r with Same s => s | Fresh _ new => new end.
  Definition seen_by_callbacks (r : stepped) : sstate := match r with Same s => s | Fresh old _ => old end.

  (** mh.py:110-140 _increase_states; [increases]: self._increases.  The new state shares tensor_tuples with the old one;
      the constructor's get_ess modifies the weights. *)
  Definition increase_states (c : smc2_cfg) (increases : nat) (g : world) (data : list Y) (s : sstate) : nat * world * res stepped :=
    if c_max c <? S increases then (S increases, g, Raise TooManyIncreases)
    else
      let np := g_np g * 2 in
      let fs := batch_filter (g_rnd g) np (g_ctx g) (g_ctx g) data in
      let weight := zip_with xsub (map snd fs) (map snd (s_fs s)) in
      let g' := World (g_ctx g) (g_ctx g) np (g_rnd g + S (List.length data)) (g_updates g) in
      (S increases, g', let! n := new_state weight fs (s_data s) in
                        Ok (Fresh s (St (s_w n) fs (s_ess s) (s_data s) (s_iter s)))).

  (** mh.py:52-108 update.  The proposal distribution is built before the resampling; one random position is used by the
      resampling and one by line 69 (the parameters drawn there are replaced before they are used). *)
  Definition pmmh_update (c : smc2_cfg) (increases : nat) (g0 : world) (s : sstate) : nat * world * res stepped :=
    let g := count_update g0 in
    match s_data s with
    | None => (increases, g, Raise AttributeError)
    | Some data =>
        match normalize (e_lowest E) (s_w s) with
        | Raise e => (increases, g, Raise e)
        | Ok (weights, w') =>
            let indices := e_resample E (g_rnd g) weights in
            let k := e_build E (g_ctx g) w' (s_fs s) in
            match gather (g_ctx g) indices, gather (s_fs s) indices with
            | Ok rows, Ok fs =>
                let '(ctx, fs', rnd, _, low) := pmmh_moves c (g_np g) data k rows (c_steps c) 0 (g_rnd g + 2) 0 0 rows fs in
                let s' := with_w w' (with_fs fs' s) in
                if low then increase_states c increases (World ctx (g_model g) (g_np g) rnd (g_updates g)) data s'
                else (increases, World ctx ctx (g_np g) rnd (g_updates g), Ok (Same (with_w (zeros w') s')))
            | _, _ => (increases, g, Raise IndexError)
            end
        end
    end.

  (** * The algorithms *)
  (** NESS (threshold, discrete), FixedWidthNESS (block length, discrete; a block length of zero is a ZeroDivisionError,
      not represented), SMC2. *)
  Inductive base : Type := NESS (threshold : R) (discrete : bool) | FixedWidthNESS (block_len : nat) (discrete : bool) | SMC2 (c : smc2_cfg).
  (** What an instance remembers: self._num_iterations (ness.py:105), self._increases of its kernel (mh.py:50). *)
  Record inst : Type := Inst { i_blocks : nat; i_increases : nat }.
  Definition inst0 : inst := Inst 0 0.

  (** ness.py:83-85 and 107-109 do_update_particles; python's [any(ess)] is true if some entry is not zero. *)
  Definition do_update_particles (b : base) (i : inst) (s : sstate) : inst * bool :=
    match b with
    | NESS thr _ => (i, (existsb (fun e => negb (xeq e (Fin 0))) (s_ess s) && xlt (newest (s_ess s)) (Fin (thr * INR (e_B E)))) || nonfinite (s_w s))
    | FixedWidthNESS bl _ => let i' := Inst (S (i_blocks i)) (i_increases i) in (i', (i_blocks i' mod bl =? 0) || nonfinite (s_w s))
    | SMC2 _ => (i, false)
    end.
  Definition discrete_of (b : base) : bool := match b with NESS _ d | FixedWidthNESS _ d => d | SMC2 _ => false end.

  (** ness.py:52-59 BaseOnlineAlgorithm._step; smc2.py:53-65 SMC2._step (append_data on a state without the deque raises
      AttributeError). *)
  Definition base_step (b : base) (i : inst) (g : world) (y : Y) (s : sstate) : inst * world * res stepped :=
    match b with
    | SMC2 c =>
        match s_data s with
        | None => (i, g, Raise AttributeError)
        | Some d =>
            let (g1, r) := absorb g y (St (s_w s) (s_fs s) (s_ess s) (Some (d ++ [y])) (s_iter s)) in
            match r with
            | Raise e => (i, g1, Raise e)
            | Ok s1 =>
                if xlt (newest (s_ess s1)) (Fin (c_threshold c (List.length (s_ess s1) - 1) * INR (e_B E))) || nonfinite (s_w s1)
                then let '(n, g2, r2) := pmmh_update c (i_increases i) g1 s1 in (Inst (i_blocks i) n, g2, r2)
                else (i, g1, Ok (Same s1))
            end
        end
    | _ =>
        let (i', update) := do_update_particles b i s in
        let (g1, r) := if update then online_update (discrete_of b) g s else (g, Ok s) in
        match r with
        | Raise e => (i', g1, Raise e)
        | Ok s1 => let (g2, r2) := absorb g1 y s1 in (i', g2, let! s2 := r2 in Ok (Same s2))
        end
    end.

  (** An algorithm: a basic one, or base.py:105-171 CombinedSequentialParticleAlgorithm with the do_on_switch of
      nessmc2.py:47-48. *)
  Inductive cfg : Type := Plain (b : base) | Combined (first second : base) (switch : nat).
  Record alg : Type := Alg { a_first : inst; a_second : inst; a_switched : bool; a_world : world }.

  (** base.py:163-171. *)
  Definition step_ (c : cfg) (a : alg) (y : Y) (s : sstate) : alg * res stepped :=
    match c with
    | Plain b => let '(i, g, r) := base_step b (a_first a) (a_world a) y s in (Alg i (a_second a) (a_switched a) g, r)
    | Combined b1 b2 switch =>
        if negb (a_switched a) && (s_iter s <=? switch)
        then let '(i, g, r) := base_step b1 (a_first a) (a_world a) y s in (Alg i (a_second a) (a_switched a) g, r)
        else let '(i, g, r) := base_step b2 (a_second a) (a_world a) y s in (Alg (a_first a) i true g, r)
    end.

  (** A callback: its identity and whether it calls [state.normalized_weights()] (collectors.py: MeanCollector,
      Standardizer, ParameterPosterior do).  What collectors append to tensor_tuples: Collectors.v. *)
  Record callback : Type := Callback { cb_id : nat; cb_reads : bool }.
  (** base.py:46-49. *)
  Definition register_callback (cbs : list callback) (cb : option callback) : list callback :=
    match cb with
    | None => cbs
    | Some c => if existsb (fun d => Nat.eqb (cb_id d) (cb_id c)) cbs then cbs else cbs ++ [c]
    end.
  (** state.py:53-54 normalized_weights: the returned weights; the stored ones are changed. *)
  Definition normalized_weights (s : sstate) : res (list xf * sstate) :=
    let! (p, w') := normalize (e_lowest E) (s_w s) in Ok (p, with_w w' s).
  Definition read_weights (s : sstate) : sstate := match normalized_weights s with Ok (_, s') => s' | Raise _ => s end.
  (** base.py:75-76: the calls made (callback, observation, state at the time of the call), and the state afterwards. *)
  Fixpoint run_callbacks (cbs : list callback) (y : Y) (s : sstate) : list (nat * Y * sstate) * sstate :=
    match cbs with
    | [] => ([], s)
    | c :: r => let (l, s') := run_callbacks r y (if cb_reads c then read_weights s else s) in ((cb_id c, y, s) :: l, s')
    end.
  (** state.py:46-51. *)
  Definition bump_iteration (s : sstate) : sstate := St (s_w s) (s_fs s) (s_ess s) (s_data s) (S (s_iter s)).
  (** base.py:64-80: the new state and the calls of callbacks. *)
  Definition step (c : cfg) (cbs : list callback) (a : alg) (y : Y) (s : sstate) : alg * res (sstate * list (nat * Y * sstate)) :=
    let (a', r) := step_ c a y s in
    match r with
    | Raise e => (a', Raise e)
    | Ok r' =>
        let (calls, seen) := run_callbacks cbs y (seen_by_callbacks r') in
        (a', Ok (bump_iteration (match r' with Same _ => seen | Fresh _ new => new end), calls))
    end.
  (** base.py:98-100 from a given state; the calls of callbacks in order. *)
  Fixpoint run (c : cfg) (cbs : list callback) (a : alg) (ys : list Y) (s : sstate) : alg * res (sstate * list (nat * Y * sstate)) :=
    match ys with
    | [] => (a, Ok (s, []))
    | y :: r =>
        let (a', x) := step c cbs a y s in
        match x with
        | Raise e => (a', Raise e)
        | Ok (s', calls) => let (a'', x') := run c cbs a' r s' in (a'', let! (s'', more) := x' in Ok (s'', calls ++ more))
        end
    end.

  (** base.py:51-62, smc2.py:48-51, base.py:160-161 initialize: [drawn]: the rows of the context when the model is built
      (line 56), [placed]: the rows after context.initialize_parameters() (line 57: the same unless the context is a
      QuasiInferenceContext, context.py). *)
  Definition keeps_data (c : cfg) : bool := match c with Plain (SMC2 _) | Combined (SMC2 _) _ _ => true | _ => false end.
  Definition initialize_alg (c : cfg) (a : alg) (drawn placed : list T) : alg * res sstate :=
    let g := a_world a in
    (Alg (a_first a) (a_second a) (a_switched a) (World placed drawn (g_np g) (S (g_rnd g)) (g_updates g)),
     new_state (repeat (Fin 0) (e_B E)) (init_result (g_rnd g) (g_np g) drawn placed) (if keeps_data c then Some [] else None)).
  (** base.py:93-102 fit. *)
  Definition fit_alg (c : cfg) (cbs : list callback) (a : alg) (drawn placed : list T) (ys : list Y) : alg * res (sstate * list (nat * Y * sstate)) :=
    let (a', r) := initialize_alg c a drawn placed in
    match r with Raise e => (a', Raise e) | Ok s => run c cbs a' ys s end.

  (** A new algorithm object around a filter with [np] particles (__init__ of the classes). *)
  Definition new_alg (np rnd : nat) : alg := Alg inst0 inst0 false (World [] [] np rnd 0).

  (** * Saving and loading (state.py:59-69, inference/state.py:39-47, filters/result.py:135-153, container.py: the container,
      the filter result and the context are modelled in Container.v, Result.v, Context.v) *)
  (** [context.state_dict(), state.state_dict()]: rows of the context; weights, latest states and log likelihoods, ess,
      parsed data, iteration. *)
  Definition save (a : alg) (s : sstate) : list T * sstate := (g_ctx (a_world a), s).
  (** As in tests/inference/test_sequential.py:73-80: a new algorithm [a] is initialised ([drawn]), then the context and
      the state are loaded; load_state_dict sets the data of the context's parameters (context.py:321) and does not build
      the model again. *)
  Definition load (saved : list T * sstate) (a : alg) : alg * sstate :=
    (Alg (a_first a) (a_second a) (a_switched a) (World (fst saved) (g_model (a_world a)) (g_np (a_world a)) (g_rnd (a_world a)) (g_updates (a_world a))), snd saved).
  (** base.py:93-102 continued: [a.initialize()], loading, then the rest of the data with the random numbers from
      position [rnd] on. *)
  Definition at_position (rnd : nat) (a : alg) : alg :=
    Alg (a_first a) (a_second a) (a_switched a) (World (g_ctx (a_world a)) (g_model (a_world a)) (g_np (a_world a)) rnd (g_updates (a_world a))).
  Definition resume (c : cfg) (cbs : list callback) (np rnd : nat) (drawn : list T) (saved : list T * sstate) (ys : list Y) : alg * res (sstate * list (nat * Y * sstate)) :=
    let (a, r) := initialize_alg c (new_alg np 0) drawn drawn in
    match r with
    | Raise e => (a, Raise e)
    | Ok _ => let (a', s) := load saved a in run c cbs (at_position rnd a') ys s
    end.
End Sequential.
