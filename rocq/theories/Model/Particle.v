(** Model of the particle filters: pyfilter/filters/particle/state.py, sisr.py, apf.py, gpf.py and
    pyfilter/filters/utils.py.

    A tensor over particles and parallel filters is a [mat] (dimension 0 particles, dimension 1 filters); an unbatched
    filter is a batch of one: all operations below reduce or index along dimension 0, and for an unbatched filter
    [normalized_weigths[..., mask]] with the zero-dimensional mask of sisr.py:19 adds a batch dimension of size one.
    A particle's value is an abstract [X] (a number or an event vector): the code only copies values around, and
    where it copies them elementwise in the event dimension it uses the same index for all components. *)
From Coq Require Import Reals List Bool Arith.
From Verif.Model Require Import Base Xf Tensor Weights.
Import ListNotations.
Local Open Scope nat_scope.

(** stochproc's TimeseriesState: a time index and values. *)
Record tstate (X : Type) : Type := TS { ts_time : nat; ts_val : mat X }.
Arguments TS {X}. Arguments ts_time {X}. Arguments ts_val {X}.

(** filters/particle/state.py:14-33 ParticleFilterPrediction. *)
Record pred (X : Type) : Type :=
  Pred { p_x : tstate X; p_w : mat xf; p_nw : mat xf; p_inds : mat nat }.
Arguments Pred {X}. Arguments p_x {X}. Arguments p_w {X}. Arguments p_nw {X}. Arguments p_inds {X}.

(** filters/particle/state.py:72-95 ParticleFilterCorrection, without the mean and variance, which are functions of
    the particles and weights (Model/Weights.v) and are not read by the filters. *)
Record corr (X : Type) : Type :=
  Corr { c_x : tstate X; c_w : mat xf; c_ll : nat -> xf; c_inds : mat nat }.
Arguments Corr {X}. Arguments c_x {X}. Arguments c_w {X}. Arguments c_ll {X}. Arguments c_inds {X}.

(** Elementwise operations of tensors of the same shape (broadcasting is not modelled). *)
Definition map_mat {A B} (f : A -> B) (m : mat A) : mat B :=
  Mat (m_rows m) (m_cols m) (fun i j => f (m_get m i j)).
Definition zip_mat {A B C} (f : A -> B -> C) (a : mat A) (b : mat B) : mat C :=
  Mat (m_rows a) (m_cols a) (fun i j => f (m_get a i j) (m_get b i j)).

(** [torch.arange(n).unsqueeze(-1).expand((n, cols))]: base.py:96-99, 135-138, apf.py:18-21. *)
Definition arange (n cols : nat) : mat nat := Mat n cols (fun i _ => i).

(** Number of selected columns before column [j]. *)
Definition rank (mask : nat -> bool) (j : nat) : nat := length (filter mask (seq 0 j)).
(** [mask.nonzero()]: the selected columns in order. *)
Definition selected (mask : nat -> bool) (cols : nat) : list nat := filter mask (seq 0 cols).

(** [tensor[..., mask]]. *)
Definition select_cols {A} (m : mat A) (mask : nat -> bool) : mat A :=
  Mat (m_rows m) (rank mask (m_cols m)) (fun i k => m_get m i (nth k (selected mask (m_cols m)) 0)).

(** [tensor.masked_fill(mask.unsqueeze(0), v)]. *)
Definition masked_fill {A} (m : mat A) (mask : nat -> bool) (v : A) : mat A :=
  Mat (m_rows m) (m_cols m) (fun i j => if mask j then v else m_get m i j).

(** [tensor.masked_scatter(mask.unsqueeze(0), source)]: the mask is broadcast over the rows and its true positions
    are visited in row-major order, each taking the next element of [source], again in row-major order.  A source with
    too few elements raises RuntimeError. *)
Definition masked_scatter {A} (m : mat A) (mask : nat -> bool) (source : mat A) : res (mat A) :=
  let n := rank mask (m_cols m) in
  if (m_rows source * m_cols source <? m_rows m * n)%nat then Raise RuntimeError
  else Ok (Mat (m_rows m) (m_cols m) (fun i j =>
         if mask j
         then let p := (i * n + rank mask j)%nat in
              m_get source (p / m_cols source) (p mod m_cols source)
         else m_get m i j)).

Definition all_entries {A} (f : A -> bool) (m : mat A) : bool :=
  forallb (fun i => forallb (fun j => f (m_get m i j)) (seq 0 (m_cols m))) (seq 0 (m_rows m)).

(** [tensor[idx, mask]] with an index tensor [idx] and a boolean mask over the columns (sisr.py:38): the mask stands
    for the vector of its true positions, which is broadcast against [idx]; a vector of another length than [idx] has
    columns, or an index out of range, raises IndexError. *)
Definition index_cols {A} (m : mat A) (idx : mat nat) (mask : nat -> bool) : res (mat A) :=
  if (negb (m_cols idx =? rank mask (m_cols m)) || negb (all_entries (fun k => k <? m_rows m) idx))%bool
  then Raise IndexError
  else Ok (Mat (m_rows idx) (m_cols idx)
             (fun i k => m_get m (m_get idx i k) (nth k (selected mask (m_cols m)) 0))).

(** filters/utils.py:4-21 batched_gather along dimension 0 ([Tensor.gather]).  An index out of range, or an index
    tensor with more columns than the tensor, raises RuntimeError. *)
Definition batched_gather {A} (m : mat A) (idx : mat nat) : res (mat A) :=
  if (negb (m_cols idx <=? m_cols m) || negb (all_entries (fun k => k <? m_rows m) idx))%bool
  then Raise RuntimeError
  else Ok (Mat (m_rows idx) (m_cols idx) (fun i j => m_get m (m_get idx i j) j)).

Section Filters.
  Context {X Y : Type}.
  (** Lowest finite number of the dtype, see Model/Weights.v. *)
  Variable lowest : R.

  (** pyfilter/utils.py:49-64 normalize over dimension 0 of a matrix (columns are independent); second component: the
      argument after the call. *)
  Definition norm_col (l : list xf) : list xf :=
    match normalize lowest l with Ok (p, _) => p | Raise _ => [] end.
  Definition normalize_mat (w : mat xf) : res (mat xf * mat xf) :=
    if (m_rows w =? 0)%nat then Raise IndexError
    else Ok (Mat (m_rows w) (m_cols w) (fun i j => nth i (norm_col (col w j)) NaN), map_mat (nan_to_num lowest) w).

  (** pyfilter/utils.py:8-20 get_ess of normalised weights. *)
  Definition ess_col (l : list xf) : xf :=
    match get_ess lowest l true with Ok (e, _) => e | Raise _ => NaN end.

  (** filters/particle/utils.py:7-22 log_likelihood, column by column; the empty column raises. *)
  Definition loglik_mat (iw : mat xf) (w : option (mat xf)) : res (nat -> xf) :=
    if (m_rows iw =? 0)%nat then Raise IndexError
    else Ok (fun j => match log_likelihood (col iw j) (match w with Some w => Some (col w j) | None => None end) with
                      | Ok v => v | Raise _ => NaN end).

  (** filters/particle/state.py:77-95: the constructor stores its arguments and computes the moments, for which it
      calls [normalized_weights] (line 148), which modifies the stored weights in place. *)
  Definition mk_corr (x : tstate X) (w : mat xf) (ll : nat -> xf) (inds : mat nat) : res (corr X) :=
    let! (_, w') := normalize_mat w in Ok (Corr x w' ll inds).

  (** The random number generator is a stream; position [r] of it fixes the outcome of the external functions called
      next.  [resampler r normalized w]: the resampling function (Model/Resampling.v) with its [normalized] flag.
      [propagate r x]: stochproc's [model.hidden.propagate].  [sample_and_weight r y x w nw]: the proposal, given the
      previous state, log weights and normalised weights of the prediction (no proposal reads the indices).
      [pre_weight y x]: the proposal's look-ahead weights.  [initial r]: stochproc's [initial_sample]. *)
  Record oracle : Type := Oracle {
    resampler : nat -> bool -> mat xf -> res (mat nat);
    propagate : nat -> tstate X -> tstate X;
    sample_and_weight : nat -> Y -> tstate X -> mat xf -> mat xf -> tstate X * mat xf;
    pre_weight : Y -> tstate X -> mat xf
  }.
  Variable o : oracle.

  (** filters/particle/base.py:87-103 initialize, for [n] particles and [b] parallel filters, given the sample from
      the initial distribution. *)
  Definition initialize (n b : nat) (x0 : tstate X) : res (corr X) :=
    mk_corr x0 (Mat n b (fun _ _ => Fin 0)) (fun _ => Fin 0) (arange n b).

  (** filters/particle/state.py:38-42 create_state_from_prediction. *)
  Definition create_state (r : nat) (p : pred X) : res (corr X) :=
    mk_corr (propagate o r (p_x p)) (p_w p) (fun _ => Fin 0) (p_inds p).

  (** sisr.py:18-19. *)
  Definition below (thr : R) (nw : mat xf) (j : nat) : bool := xlt (ess_col (col nw j)) (Fin thr).

  (** sisr.py:14-48 SISR.predict.  [thr]: [self._resample_threshold]. *)
  Definition sisr_predict (thr : R) (r : nat) (s : corr X) : res (pred X) :=
    let! (nw, w) := normalize_mat (c_w s) in
    let mask := below thr nw in
    if negb (existsb mask (seq 0 (m_cols nw)))
    then Ok (Pred (c_x s) w nw (c_inds s))
    else
      let! sub := resampler o r true (select_cols nw mask) in
      let! inds := masked_scatter (c_inds s) mask sub in
      let rw := masked_fill w mask (Fin 0) in
      let rnw := masked_fill nw mask (xdiv (Fin 1) (Fin (INR (m_rows w)))) in
      let! temp := index_cols (ts_val (c_x s)) sub mask in
      let! vals := masked_scatter (ts_val (c_x s)) mask temp in
      Ok (Pred (TS (ts_time (c_x s)) vals) rw rnw inds).

  (** sisr.py:50-56 SISR.correct. *)
  Definition sisr_correct (r : nat) (y : Y) (p : pred X) : res (corr X) :=
    let (x, weights) := sample_and_weight o r y (p_x p) (p_w p) (p_nw p) in
    let new_weights := zip_mat xadd weights (p_w p) in
    let! ll := loglik_mat weights (Some (p_nw p)) in
    mk_corr x new_weights ll (p_inds p).

  (** apf.py:16-23 APF.predict. *)
  Definition apf_predict (s : corr X) : res (pred X) :=
    let! (nw, w) := normalize_mat (c_w s) in
    Ok (Pred (c_x s) w nw (arange (m_rows nw) (m_cols nw))).

  (** apf.py:25-46 APF.correct.  The resampler of line 31 normalises [resample_weights] itself. *)
  Definition apf_correct (r : nat) (y : Y) (p : pred X) : res (corr X) :=
    let pre := pre_weight o y (p_x p) in
    let! inds := resampler o r false (zip_mat xadd pre (p_w p)) in
    let! vals := batched_gather (ts_val (p_x p)) inds in
    let temp := map_mat (fun _ => Fin 0) pre in
    let tnw := map_mat (fun t => xadd t (xdiv (Fin 1) (Fin (INR (m_rows pre))))) temp in
    let (x, weights) := sample_and_weight o r y (TS (ts_time (p_x p)) vals) temp tnw in
    let! g := batched_gather pre inds in
    let weights := zip_mat xsub weights g in
    let! ll := loglik_mat weights None in
    let total j := xlog (xsum (map (fun wg => xmul (fst wg) (xexp (snd wg))) (combine (col (p_nw p) j) (col pre j)))) in
    mk_corr x weights (fun j => xadd (ll j) (total j)) inds.

  (** gpf.py:26-29 GPF.predict. *)
  Definition gpf_predict (s : corr X) : res (pred X) :=
    let! (nw, w) := normalize_mat (c_w s) in Ok (Pred (c_x s) w nw (c_inds s)).

  (** gpf.py:31-34 GPF.correct. *)
  Definition gpf_correct (r : nat) (y : Y) (p : pred X) : res (corr X) :=
    let (x, weights) := sample_and_weight o r y (p_x p) (p_w p) (p_nw p) in
    let! ll := loglik_mat weights None in
    mk_corr x weights ll (p_inds p).

  (** The three filter classes; [SISR thr] carries its threshold. *)
  Inductive kind : Type := SISR (thr : R) | APF | GPF.
  Definition predict (k : kind) (r : nat) (s : corr X) : res (pred X) :=
    match k with SISR thr => sisr_predict thr r s | APF => apf_predict s | GPF => gpf_predict s end.
  Definition correct (k : kind) (r : nat) (y : Y) (p : pred X) : res (corr X) :=
    match k with SISR _ => sisr_correct r y p | APF => apf_correct r y p | GPF => gpf_correct r y p end.
End Filters.
