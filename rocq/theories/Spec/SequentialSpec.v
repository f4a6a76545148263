(** What sequential algorithms promise. *)
From Coq Require Import Reals List Bool Arith.
From Verif.Model Require Import Base Xf Pmmh Sequential.
From Verif.Spec Require Import PmmhSpec.
Import ListNotations.
Local Open Scope nat_scope.

(** What is required of the external parts: a positive number [B] of parameter particles; resampling gives [B] indices
    below [B] (C14 for the library's own); kernels, proposals and random numbers give one entry for each of the [B] particles. *)
Definition env_ok {T F Y K} (E : env T F Y K) : Prop :=
  let B := e_B E in
  0 < B /\
  (forall r w, List.length w = B -> List.length (e_resample E r w) = B /\ Forall (fun i => i < B) (e_resample E r w)) /\
  (forall r rows w idx, List.length rows = B -> List.length idx = B -> List.length (e_jitter E r rows w idx) = B) /\
  (forall r, List.length (e_coins E r) = B) /\ (forall r k, List.length (e_sample E r k) = B) /\
  log_prob_ok (e_log_prob E) /\ (forall r, List.length (e_uniforms E r) = B).

(** The entry of slot [b] of a list, if there is one. *)
Definition slot {A} (l : list A) (b : nat) : option A := nth_error l b.

(** A running average: the average of the first [j] entries of [l]. *)
Definition average (l : list R) : R := (fold_right Rplus 0 l / INR (List.length l))%R.

(** C50: the observations an algorithm keeps for its filters to be run again: all of them (SMC2), none (NESS,
    FixedWidthNESS), those given to the first algorithm (NESSMC2). *)
Definition recorded {Y} (c : cfg) (ys : list Y) : option (list Y) :=
  match c with
  | Plain (SMC2 _) | Combined (SMC2 _) (SMC2 _) _ => Some ys
  | Combined (SMC2 _) _ switch => Some (firstn (S switch) ys)
  | _ => None
  end.
(** Combinations in which the second algorithm does not need observations the first one did not keep. *)
Definition compatible (c : cfg) : Prop :=
  match c with Combined (SMC2 _) _ _ | Plain _ => True | Combined _ (SMC2 _) _ => False | Combined _ _ _ => True end.

(** C55: consecutive Metropolis-Hastings steps with a fixed kernel [k]: the acceptance masks and the rows after each step. *)
Inductive mh_steps {T F Y K} (E : env T F Y K) (np : nat) (data : list Y) (k : K) : nat -> list T -> list (F * xf) -> list (list bool) -> list (list T) -> list T -> list (F * xf) -> Prop :=
| no_step rnd ctx fs : mh_steps E np data k rnd ctx fs [] [] ctx fs
| one_step rnd ctx fs ch acc accs hist ctx' fs' :
    run_pmmh snd (e_log_prior E) (e_build E) (e_log_prob E) (e_exchange E) (e_sample E rnd k) (fun rows => batch_filter E (rnd + 1) np rows rows data)
      (map (fun _ => Fin 0) fs) (e_uniforms E (rnd + 2 + List.length data)) false (Chains ctx fs k) = (ch, acc) ->
    mh_steps E np data k (rnd + 3 + List.length data) (positions ch) (results ch) accs hist ctx' fs' ->
    mh_steps E np data k rnd ctx fs (acc :: accs) (positions ch :: hist) ctx' fs'.
(** The share of accepted candidates of a step; the average of these shares over the first [j] steps. *)
Definition share (acc : list bool) : R := (INR (count_occ bool_dec acc true) / INR (List.length acc))%R.
Definition rate_after (accs : list (list bool)) (j : nat) : R := average (map share (firstn j accs)).
(** The distance to the rows before the first step, after [j] steps. *)
Definition distance_after {T} (distance : list T -> list T -> R) (old : list T) (hist : list (list T)) (j : nat) : R :=
  match j with 0 => 0%R | S m => distance (nth m hist []) old end.
(** The steps have moved the rows about as far as they will. *)
Definition settled {T} (distance : list T -> list T -> R) (old : list T) (th : R) (hist : list (list T)) (j : nat) : Prop :=
  (Rabs (distance_after distance old hist j - distance_after distance old hist (j - 1)) <= th * distance_after distance old hist (j - 1))%R.

(** C56: the filter of one slot run by itself with parameters [t]: latest state and log likelihood. *)
Fixpoint alone_on {T F Y K} (E : env T F Y K) (rnd np b : nat) (t : T) (data : list Y) (f : F * xf) : F * xf :=
  match data with
  | [] => f
  | y :: r => let c := e_step E rnd np b t t y (fst f) in alone_on E (S rnd) np b t r (fst c, xadd (snd f) (snd c))
  end.
Definition alone {T F Y K} (E : env T F Y K) (rnd np b : nat) (t : T) (data : list Y) : F * xf :=
  alone_on E (S rnd) np b t data (e_init E rnd np b t t, Fin 0).

(** C52: the newest effective sample size is below a fraction of the number of particles; some weight is not a finite number. *)
Definition low_ess (frac : R) (B : nat) (ess : list xf) : Prop := exists before e, ess = before ++ [Fin e] /\ (e < frac * INR B)%R.
Definition unusable (w : list xf) : Prop := exists x, In x w /\ match x with Fin _ => False | _ => True end.
(** Recorded effective sample sizes are at least one, or not a number. *)
Definition ess_entry (e : xf) : Prop := e = NaN \/ exists r, e = Fin r /\ (1 <= r)%R.
Definition ess_ok (ess : list xf) : Prop := ess <> [] /\ Forall ess_entry ess.

(** C51: a weight after a likelihood increment: minus infinity is stored as the lowest finite number, what is not a number or
    plus infinity as minus infinity. *)
Definition add_weight (lowest : R) (w inc : xf) : xf :=
  match xadd w inc with Fin r => Fin r | NInf => Fin lowest | PInf => NInf | NaN => NInf end.

(** C57: the callbacks in the order of their first registration ([None] registers nothing). *)
Fixpoint first_registered (seen : list nat) (l : list (option callback)) : list callback :=
  match l with
  | [] => []
  | None :: r => first_registered seen r
  | Some c :: r => if in_dec Nat.eq_dec (cb_id c) seen then first_registered seen r else c :: first_registered (cb_id c :: seen) r
  end.

(** C81: [f] is the result of the filter with parameters [t] on [data]: every step was made with these parameters (whatever
    the random numbers, the number of state particles and the slot at that time). *)
Inductive filtered {T F Y K} (E : env T F Y K) (t : T) : list Y -> F * xf -> Prop :=
| filtered_start rnd np b : filtered E t [] (e_init E rnd np b t t, Fin 0)
| filtered_next rnd np b data y f l : filtered E t data (f, l) ->
    filtered E t (data ++ [y]) (fst (e_step E rnd np b t t y f), xadd l (snd (e_step E rnd np b t t y f))).

(** C58: the filter does not depend on the parameters at the time the model was built. *)
Definition live {T F Y K} (E : env T F Y K) : Prop :=
  forall r np b t t' now y f, e_step E r np b t now y f = e_step E r np b t' now y f.
