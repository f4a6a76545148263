(** Model of pyfilter/utils.py (normalize, get_ess) and pyfilter/filters/particle/utils.py
    (log_likelihood, get_filter_mean_and_variance), for one column (one filter of a batch): all reductions are
    along dimension 0 and every other dimension is treated independently. *)
From Coq Require Import Reals List Bool.
From Verif.Model Require Import Base Xf.
Import ListNotations.
Open Scope R_scope.

Section Weights.
  (** The lowest finite number of the dtype: torch's [nan_to_num_] replaces -inf by it when [neginf] is not given. *)
  Variable lowest : R.

  (** pyfilter/utils.py:57 [weights.nan_to_num_(-INFTY, posinf=-INFTY)], elementwise. *)
  Definition nan_to_num (x : xf) : xf :=
    match x with NaN => NInf | PInf => NInf | NInf => Fin lowest | Fin r => Fin r end.

  (** pyfilter/utils.py:59: max shift and softmax of the sanitised weights. *)
  Definition shifted_softmax (w : list xf) : list xf :=
    softmax (map (fun x => xsub x (xmaxl w)) w).

  (** pyfilter/utils.py:49-64 normalize.  First component: the returned tensor; second: the contents of the
      argument after the call (it is modified in place).  [weights.max(dim=0)] of an empty tensor raises. *)
  Definition normalize (weights : list xf) : res (list xf * list xf) :=
    match weights with
    | [] => Raise IndexError
    | _ =>
        let w := map nan_to_num weights in
        let normalized := shifted_softmax w in
        let ax_sum := xsum normalized in
        Ok (if xeq ax_sum (Fin 0)
            then map (fun _ => xdiv (Fin 1) (Fin (INR (length normalized)))) normalized
            else normalized, w)
    end.

  (** pyfilter/utils.py:8-20 get_ess.  Second component: the argument after the call. *)
  Definition get_ess (weights : list xf) (normalized : bool) : res (xf * list xf) :=
    let! (w, arg) := (if normalized then Ok (weights, weights) else normalize weights) in
    Ok (xrecip (xsum (map (fun x => xmul x x) w)), arg).

  (** pyfilter/filters/particle/utils.py:7-22 log_likelihood; [weights = None] is the uniform weight. *)
  Definition log_likelihood (importance_weights : list xf) (weights : option (list xf)) : res xf :=
    match importance_weights with
    | [] => Raise IndexError
    | _ =>
        let max_w := xmaxl importance_weights in
        let temp := map (fun x => xexp (xsub x max_w)) importance_weights in
        let weighted :=
          match weights with
          | None => map (fun t => xmul (xdiv (Fin 1) (Fin (INR (length importance_weights)))) t) temp
          | Some ws => map (fun wt => xmul (fst wt) (snd wt)) (combine ws temp)
          end in
        Ok (xadd max_w (xlog (xsum weighted)))
    end.

  (** pyfilter/filters/particle/utils.py:42-65 get_filter_mean_and_variance, for one component of the event
      (the computation is elementwise in the event dimension) and without the covariance branch. *)
  Definition filter_mean (values weights : list xf) : xf :=
    xsum (map (fun wv => xmul (fst wv) (snd wv)) (combine weights values)).
  Definition filter_variance (values weights : list xf) : xf :=
    let mean := filter_mean values weights in
    let centered := map (fun v => xsub v mean) values in
    xsum (map (fun wc => xmul (fst wc) (xmul (snd wc) (snd wc))) (combine weights centered)).

  (** pyfilter/filters/particle/utils.py:58-60, the covariance branch: entry for components [a] and [b] of the event. *)
  Definition filter_covariance (va vb weights : list xf) : xf :=
    let ca := map (fun v => xsub v (filter_mean va weights)) va in
    let cb := map (fun v => xsub v (filter_mean vb weights)) vb in
    xsum (map (fun wc => xmul (fst wc) (xmul (fst (snd wc)) (snd (snd wc)))) (combine weights (combine ca cb))).
End Weights.
