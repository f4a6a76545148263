(** Model of pyfilter/filters/base.py: the filtering loop over a series of observations. *)
From Coq Require Import List Bool Arith String Reals.
From Verif.Model Require Import Base Xf Tensor Weights Particle.
Import ListNotations.
Local Open Scope nat_scope.

(** base.py:60-69, the settings of a filter that the loop could look at, together with the model's
    [observe_every_step]. *)
Record fconf : Type := FConf {
  observe_every : nat;
  record_intermediary : bool;
  nan_strategy : string
}.

(** base.py:65-68: the accepted strategies. *)
Definition make_conf (every : nat) (rec : bool) (strategy : string) : res fconf :=
  if (String.eqb strategy "skip" || String.eqb strategy "impute")%bool
  then Ok (FConf every rec strategy) else Raise NotImplementedError.

(** [y.isnan().all()], base.py:213. *)
Definition missing (y : list xf) : bool := forallb xisnan y.

Section Loop.
  Context {X : Type}.
  Variable lowest : R.
  Variable o : @oracle X (list xf).
  Variable k : kind.
  Variable cf : fconf.

  (** base.py:203-210, the [while] loop.  [fuel] bounds the number of iterations; [None]: the bound was hit.  Third
      component: the states created on the way.  The remainder by zero raises. *)
  Fixpoint advance (fuel r : nat) (p : pred X) : option (res (pred X * nat * list (corr X))) :=
    match fuel with
    | O => None
    | S fuel =>
        if observe_every cf =? 0 then Some (Raise RuntimeError) else
        if ts_time (p_x p) mod observe_every cf =? 0 then Some (Ok (p, r, []))
        else match create_state lowest o r p with
             | Raise e => Some (Raise e)
             | Ok c =>
                 match predict lowest o k (S r) c with
                 | Raise e => Some (Raise e)
                 | Ok p' =>
                     match advance fuel (S (S r)) p' with
                     | Some (Ok (q, r', l)) => Some (Ok (q, r', c :: l))
                     | other => other
                     end
                 end
             end
    end.

  (** base.py:188-221 filter.  Result: the new state, the position of the random stream, and the states appended to
      the result object, in order. *)
  Definition filter_step (fuel r : nat) (y : list xf) (c : corr X) : option (res (corr X * nat * list (corr X))) :=
    match predict lowest o k r c with
    | Raise e => Some (Raise e)
    | Ok p =>
        match advance fuel (S r) p with
        | None => None
        | Some (Raise e) => Some (Raise e)
        | Some (Ok (p, r, skipped)) =>
            match (if missing y then create_state lowest o r p else correct lowest o k r y p) with
            | Raise e => Some (Raise e)
            | Ok c' => Some (Ok (c', S r, (if record_intermediary cf then skipped else []) ++ [c']))
            end
        end
    end.

  (** base.py:140-158 batch_filter from a given initial state; the appended states of all observations. *)
  Fixpoint batch_filter (fuel r : nat) (ys : list (list xf)) (c : corr X)
    : option (res (corr X * nat * list (corr X))) :=
    match ys with
    | [] => Some (Ok (c, r, []))
    | y :: ys =>
        match filter_step fuel r y c with
        | Some (Ok (c', r', l)) =>
            match batch_filter fuel r' ys c' with
            | Some (Ok (c'', r'', l')) => Some (Ok (c'', r'', l ++ l'))
            | other => other
            end
        | other => other
        end
    end.
End Loop.
