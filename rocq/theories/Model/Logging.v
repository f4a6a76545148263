(** Model of pyfilter/inference/logging.py and of how the fits call it: sequential/base.py:93-102 (on top of
    Sequential.v) and batch/mcmc/pmmh.py:76-104 (on top of Pmmh.v). *)
From Coq Require Import Reals List Bool Arith.
From Verif.Model Require Import Base Xf Pmmh Sequential.
Import ListNotations.
Local Open Scope nat_scope.

(** What a logger is asked to do: [initialize] with the number of iterations, the call of its function with a state,
    [teardown]. *)
Inductive event (S : Type) : Type := EStart (n : nat) | ECall (s : S) | EClose.
Arguments EStart {S}. Arguments ECall {S}. Arguments EClose {S}.

(** logging.py:13-25 DefaultLogger: the function, given as what it leaves of the state or the exception it raises, and
    [log_every_iteration]. *)
Record logger (S : Type) : Type := Logger { l_func : S -> res S; l_every : nat }.
Arguments Logger {S}. Arguments l_func {S}. Arguments l_every {S}.

(** logging.py:46-55 do_log. *)
Definition do_log {S} (l : logger S) (iteration : nat) (s : S) : list (event S) * res S :=
  if l_every l =? 0 then ([], Raise ZeroDivisionError)
  else if iteration mod l_every l =? 0 then ([ECall s], l_func l s) else ([], Ok s).

(** [with logging.initialize(...): body] (logging.py:27-45, 57-62): teardown happens when the block is left, and an exception is
    raised again. *)
Definition with_logger {S A} (n : nat) (body : list (event S) * res A) : list (event S) * res A :=
  (EStart n :: fst body ++ [EClose], snd body).

(** logging.py:65-88 TQDMWrapper: [self._func] advances the bar by [self._per_iter], which is one.  The bar: total, count,
    closed. *)
Record bar : Type := Bar { b_total : option nat; b_count : nat; b_closed : bool }.
Definition new_bar : bar := Bar None 0 false.
Definition tqdm {S} : logger S := Logger (fun s => Ok s) 1.
Definition bar_event {S} (b : bar) (e : event S) : bar :=
  match e with
  | EStart n => Bar (Some n) (b_count b) (b_closed b)
  | ECall _ => Bar (b_total b) (b_count b + l_every (@tqdm S)) (b_closed b)
  | EClose => Bar (b_total b) (b_count b) true
  end.
Definition bar_after {S} (l : list (event S)) : bar := fold_left bar_event l new_bar.

Section Fit.
  Context {T F Y K : Type} (E : env T F Y K).

  (** sequential/base.py:98-100. *)
  Fixpoint run_logged (c : cfg) (cbs : list callback) (l : logger (@sstate F Y)) (a : alg) (ys : list Y) (s : sstate)
    : alg * (list (event sstate) * res (sstate * list (nat * Y * sstate))) :=
    match ys with
    | [] => (a, ([], Ok (s, [])))
    | y :: r =>
        let (a', x) := step E c cbs a y s in
        match x with
        | Raise e => (a', ([], Raise e))
        | Ok (s', calls) =>
            let (ev, z) := do_log l (s_iter s') s' in
            match z with
            | Raise e => (a', (ev, Raise e))
            | Ok s'' =>
                let '(a'', (more_ev, x')) := run_logged c cbs l a' r s'' in
                (a'', (ev ++ more_ev, let! (s3, more) := x' in Ok (s3, calls ++ more)))
            end
        end
    end.
  (** sequential/base.py:93-102: the initialisation of the algorithm is inside of the block. *)
  Definition fit_logged (c : cfg) (cbs : list callback) (l : logger sstate) (a : alg) (drawn placed : list T) (ys : list Y)
    : alg * (list (event sstate) * res (sstate * list (nat * Y * sstate))) :=
    let (a', r) := initialize_alg E c a drawn placed in
    match r with
    | Raise e => (a', with_logger (List.length ys) ([], Raise e))
    | Ok s => let (a'', x) := run_logged c cbs l a' ys s in (a'', with_logger (List.length ys) x)
    end.
End Fit.

Section FitPmmh.
  Context {T F K : Type}.
  Variable ll : F -> xf.
  Variable log_prior : T -> xf.
  Variable build : list T -> list xf -> list F -> K.
  Variable log_prob : K -> list T -> list xf.
  Variable exchange_kernel : K -> K -> list bool -> K.
  Notation pstate := (@chains T F K * list (list T))%type.

  (** pmmh.py:89-102: the counter of the loop is passed on, which starts at zero. *)
  Fixpoint iterate_logged (l : logger pstate) (n i : nat) (rvs : nat -> K -> list T) (run : nat -> list T -> list F) (uniforms : nat -> list R)
    (s : pstate) : list (event pstate) * res pstate :=
    match n with
    | 0 => ([], Ok s)
    | S m =>
        let c' := fst (run_pmmh ll log_prior build log_prob exchange_kernel (rvs i (kern (fst s))) (run i) [] (uniforms i) true (fst s)) in
        let s' := (c', snd s ++ [positions c']) in
        let (ev, z) := do_log l i s' in
        match z with
        | Raise e => (ev, Raise e)
        | Ok s'' => let (more, x) := iterate_logged l m (S i) rvs run uniforms s'' in (ev ++ more, x)
        end
    end.
  (** pmmh.py:76-104: the initialisation of the chains (line 77) is outside of the block. *)
  Definition pmmh_logged (l : logger pstate) (i : initializer) (num_samples : nat) (drawn mean : list T) (first_run : list T -> list T -> list F)
    (rvs : nat -> K -> list T) (run : nat -> list T -> list F) (uniforms : nat -> list R) : list (event pstate) * res pstate :=
    match initialize i drawn mean first_run with
    | Raise e => ([], Raise e)
    | Ok (theta, res, samples) =>
        with_logger num_samples (iterate_logged l num_samples 0 rvs run uniforms (Chains theta res (build theta [] res), samples))
    end.
End FitPmmh.
