(** Specification vocabulary for the particle filters. *)
From Coq Require Import Reals List Bool Arith Sorted.
From Verif.Model Require Import Base Xf Tensor Weights Particle.
From Verif.Spec Require Import WeightsSpec.
Import ListNotations.
Local Open Scope nat_scope.

Definition shaped {A} (m : mat A) (n b : nat) : Prop := m_rows m = n /\ m_cols m = b.
Definition entries {A} (P : A -> Prop) (m : mat A) : Prop :=
  forall i j, i < m_rows m -> j < m_cols m -> P (m_get m i j).

(** Finite or -inf: what the weights of a constructed state look like. *)
Definition finite_or_ninf (x : xf) : Prop := match x with Fin _ => True | NInf => True | _ => False end.
Definition is_fin (x : xf) : Prop := match x with Fin _ => True | _ => False end.

(** A selection of ancestors for [b] filters of [n] particles. *)
Definition valid_selection (n b : nat) (i : mat nat) : Prop := shaped i n b /\ entries (fun k => k < n) i.

(** A filter state with [n] particles and [b] parallel filters. *)
Record state_ok {X} (n b : nat) (s : corr X) : Prop := {
  so_x : shaped (ts_val (c_x s)) n b;
  so_w : shaped (c_w s) n b;
  so_clean : entries finite_or_ninf (c_w s);
  so_inds : valid_selection n b (c_inds s)
}.

Definition real_of (x : xf) : R := match x with Fin r => r | _ => 0%R end.

(** Normalised importance weights of a column of log weights. *)
Definition imp (lowest : R) (l : list xf) : list R :=
  map (fun x => (mass lowest x / Rsum (map (mass lowest) l))%R) l.

(** Effective sample size of normalised weights. *)
Definition ess_of (W : list R) : R := (/ Rsum (map (fun x => x * x) W))%R.

(** A resampling function that returns a valid selection for [n] particles, whatever the weights. *)
Definition resampler_ok {X Y} (o : @oracle X Y) (n r : nat) (flag : bool) : Prop :=
  forall m, m_rows m = n -> exists i, resampler o r flag m = Ok i /\ valid_selection n (m_cols m) i.

(** A prediction whose weights are finite and whose normalised weights belong to them. *)
Record pred_ok {X} (lowest : R) (n b : nat) (p : pred X) : Prop := {
  po_x : shaped (ts_val (p_x p)) n b;
  po_w : shaped (p_w p) n b;
  po_fin : entries is_fin (p_w p);
  po_nw : shaped (p_nw p) n b;
  po_imp : forall j, j < b -> col (p_nw p) j = map Fin (imp lowest (col (p_w p) j));
  po_inds : valid_selection n b (p_inds p)
}.

(** A matrix-valued function that treats columns separately: column [j] of the result is [f] of draw [d j] and of
    column [j] of the argument. *)
Definition columnwise_resampler {X Y D} (o : @oracle X Y) (r : nat) (flag : bool) (d : nat -> D)
  (f : D -> list xf -> list nat) : Prop :=
  forall m, 0 < m_rows m -> exists i, resampler o r flag m = Ok i /\ shaped i (m_rows m) (m_cols m) /\
    entries (fun k => k < m_rows m) i /\
    forall k, k < m_cols m -> col i k = f (d k) (col m k).

Definition columnwise_proposal {X Y D} (o : @oracle X Y) (r : nat) (d : nat -> D)
  (ft : nat -> nat) (fx : D -> Y -> nat -> list X -> list xf -> list xf -> list X)
  (fw : D -> Y -> nat -> list X -> list xf -> list xf -> list xf) : Prop :=
  forall y x w nw,
    let out := sample_and_weight o r y x w nw in
    ts_time (fst out) = ft (ts_time x) /\
    shaped (ts_val (fst out)) (m_rows (ts_val x)) (m_cols (ts_val x)) /\
    shaped (snd out) (m_rows (ts_val x)) (m_cols (ts_val x)) /\
    forall k, k < m_cols (ts_val x) ->
      col (ts_val (fst out)) k = fx (d k) y (ts_time x) (col (ts_val x) k) (col w k) (col nw k) /\
      col (snd out) k = fw (d k) y (ts_time x) (col (ts_val x) k) (col w k) (col nw k).

Definition columnwise_preweight {X Y} (o : @oracle X Y) (f : Y -> nat -> list X -> list xf) : Prop :=
  forall y x, shaped (pre_weight o y x) (m_rows (ts_val x)) (m_cols (ts_val x)) /\
    forall k, k < m_cols (ts_val x) -> col (pre_weight o y x) k = f y (ts_time x) (col (ts_val x) k).

(** Two batches agree on a filter: column [j1] of the one is column [j2] of the other. *)
Definition same_filter {X} (s1 : corr X) (j1 : nat) (s2 : corr X) (j2 : nat) : Prop :=
  ts_time (c_x s1) = ts_time (c_x s2) /\
  col (ts_val (c_x s1)) j1 = col (ts_val (c_x s2)) j2 /\
  col (c_w s1) j1 = col (c_w s2) j2 /\
  c_ll s1 j1 = c_ll s2 j2 /\
  col (c_inds s1) j1 = col (c_inds s2) j2.
Definition same_prediction {X} (p1 : pred X) (j1 : nat) (p2 : pred X) (j2 : nat) : Prop :=
  ts_time (p_x p1) = ts_time (p_x p2) /\
  col (ts_val (p_x p1)) j1 = col (ts_val (p_x p2)) j2 /\
  col (p_w p1) j1 = col (p_w p2) j2 /\
  col (p_nw p1) j1 = col (p_nw p2) j2 /\
  col (p_inds p1) j1 = col (p_inds p2) j2.

(** How many parallel filters before [j] fall below the threshold: the place of filter [j] in the resampling call. *)
Definition slot {X} (lowest thr : R) (s : corr X) (j : nat) : nat :=
  length (filter (fun i => if Rlt_dec (ess_of (imp lowest (col (c_w s) i))) thr then true else false) (seq 0 j)).

(** Importance weights after multiplying in likelihoods [exp v]: W_i exp(v_i). *)
Definition tilt (W v : list R) : list R := map (fun p => (fst p * exp (snd p))%R) (combine W v).
(** Division by the sum. *)
Definition normal (l : list R) : list R := map (fun x => (x / Rsum l)%R) l.
(** The numbers in a column. *)
Definition reals (m : mat xf) (j : nat) : list R := map real_of (col m j).

(** The external functions keep the shape of the particles. *)
Definition proposal_shape {X Y} (o : @oracle X Y) (r : nat) : Prop :=
  forall y x w nw, shaped (ts_val (fst (sample_and_weight o r y x w nw))) (m_rows (ts_val x)) (m_cols (ts_val x)) /\
                   shaped (snd (sample_and_weight o r y x w nw)) (m_rows (ts_val x)) (m_cols (ts_val x)).
Definition propagate_shape {X Y} (o : @oracle X Y) (r : nat) : Prop :=
  forall x, shaped (ts_val (propagate o r x)) (m_rows (ts_val x)) (m_cols (ts_val x)).
Definition preweight_shape {X Y} (o : @oracle X Y) : Prop :=
  forall y x, shaped (pre_weight o y x) (m_rows (ts_val x)) (m_cols (ts_val x)).
