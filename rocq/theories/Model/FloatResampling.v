(** Model of pyfilter/resampling.py and of normalize and get_ess (pyfilter/utils.py) in floating point arithmetic:
    IEEE-754 numbers with rounding, overflow, underflow, signed zeros, infinities and NaN (Flocq's
    [binary_float prec emax]; float32 is [24, 128], float64 is [53, 1024]), for one row of weights (one filter).
    The files Model/Weights.v and Model/Resampling.v model the same lines without rounding. *)
From Coq Require Import ZArith List Bool.
From Flocq Require Import Core.Core IEEE754.BinarySingleNaN.
From Verif.Model Require Import Base.
Import ListNotations.

(** torch's conversion of a number to another floating point dtype: rounded to the nearest representable number. *)
Definition convert {p e p' e' : Z} {Hp' : Prec_gt_0 p'} {He' : Prec_lt_emax p' e'}
           (x : binary_float p e) : binary_float p' e' :=
  match x with
  | B754_zero s => B754_zero s
  | B754_infinity s => B754_infinity s
  | B754_nan => B754_nan
  | B754_finite s m e _ => binary_normalize p' e' Hp' He' mode_NE (cond_Zopp s (Zpos m)) e s
  end.

(** [Tensor.cumsum] on the CPU (ATen/native/cpu/ReduceOpsKernel.cpp, cumsum_cpu_kernel): the running sum is kept in
    the accumulation dtype (float64 for both float32 and float64) and every partial sum is converted back. *)
Fixpoint cumsum_from {p e p' e' : Z} {Hp : Prec_gt_0 p} {He : Prec_lt_emax p e}
         {Hp' : Prec_gt_0 p'} {He' : Prec_lt_emax p' e'}
         (acc : binary_float p' e') (l : list (binary_float p e)) : list (binary_float p e) :=
  match l with
  | [] => []
  | x :: r => let acc := Bplus mode_NE acc (convert x) in convert acc :: cumsum_from acc r
  end.
Definition cpu_cumsum (p' e' : Z) {Hp' : Prec_gt_0 p'} {He' : Prec_lt_emax p' e'}
           {p e : Z} {Hp : Prec_gt_0 p} {He : Prec_lt_emax p e} (l : list (binary_float p e)) : list (binary_float p e) :=
  cumsum_from (p' := p') (e' := e') (B754_zero false) l.

Section Floats.
  Context {prec emax : Z} {Hp : Prec_gt_0 prec} {He : Prec_lt_emax prec emax}.
  Notation float := (binary_float prec emax).

  (** A python integer or an index converted to the dtype. *)
  Definition of_nat (n : nat) : float := binary_normalize prec emax Hp He mode_NE (Z.of_nat n) 0 false.

  Definition fadd : float -> float -> float := Bplus mode_NE.
  Definition fsub : float -> float -> float := Bminus mode_NE.
  Definition fmul : float -> float -> float := Bmult mode_NE.
  Definition fdiv : float -> float -> float := Bdiv mode_NE.

  (** [tensor / n] for a python number [n]: a division on the CPU, a multiplication by the rounded reciprocal on a
      GPU (ATen/native/cuda/BinaryDivTrueKernel.cu). *)
  Inductive division := ByDivision | ByReciprocal.
  Definition div_scalar (how : division) (x n : float) : float :=
    match how with ByDivision => fdiv x n | ByReciprocal => fmul x (fdiv Bone n) end.

  (** resampling.py:49 [cumsum[..., -1] = 1.0]. *)
  Fixpoint set_last (v : float) (l : list float) : list float :=
    match l with [] => [] | [_] => [v] | x :: r => x :: set_last v r end.

  (** [torch.searchsorted] as in Model/Resampling.v, with the comparison of floating point numbers. *)
  Fixpoint lower_bound (fuel start stop : nat) (bd : nat -> float) (val : float) : nat :=
    match fuel with
    | O => start
    | S fuel =>
        if (start <? stop)%nat
        then let mid := (start + (stop - start) / 2)%nat in
             if negb (Bleb val (bd mid))
             then lower_bound fuel (S mid) stop bd val
             else lower_bound fuel start mid bd val
        else start
    end.
  Definition searchsorted (sorted : list float) (val : float) : nat :=
    lower_bound (length sorted) 0 (length sorted) (fun i => nth i sorted B754_nan) val.

  (** resampling.py:44-47 [probs = (index_range + u) / n]: position [k] of the grid. *)
  Definition grid (how : division) (n : nat) (u : float) (k : nat) : float :=
    div_scalar how (fadd (of_nat k) u) (of_nat n).

  (** resampling.py:40-50 systematic, one row of normalised weights, offset [u] (of the dtype of the weights).
      [cumsum]: the running sums, which depend on the device; [cpu_cumsum] above is the CPU's.  An empty row raises
      at line 49. *)
  Definition systematic_row (how : division) (cumsum : list float -> list float) (w : list float) (u : float)
    : res (list nat) :=
    match w with
    | [] => Raise IndexError
    | _ =>
        let n := length w in
        let cum := set_last Bone (cumsum w) in
        Ok (map (fun k => searchsorted cum (grid how n u k)) (seq 0 n))
    end.

  (** pyfilter/utils.py:57 [weights.nan_to_num_(-INFTY, posinf=-INFTY)], elementwise: NaN and +inf become -inf, -inf
      becomes the lowest number of the dtype. *)
  Definition nan_to_num (x : float) : float :=
    match x with
    | B754_nan | B754_infinity false => B754_infinity true
    | B754_infinity true => Bopp Bmax_float
    | _ => x
    end.

  (** [Tensor.max]: NaN as soon as one entry is. *)
  Definition fmax (a b : float) : float :=
    match a, b with B754_nan, _ => a | _, B754_nan => b | _, _ => if Bltb a b then b else a end.
  Definition fmaxl (l : list float) : float :=
    match l with [] => B754_nan | a :: r => fold_left fmax r a end.

  Section Normalize.
    (** The exponential function of the device and the order in which the device adds up a list: external. *)
    Variable fexp : float -> float.
    Variable fsum : list float -> float.

    (** [Tensor.softmax(dim=0)]: subtract the largest entry, exponentiate, divide by the sum. *)
    Definition softmax (l : list float) : list float :=
      let m := fmaxl l in
      let e := map (fun x => fexp (fsub x m)) l in
      map (fun x => fdiv x (fsum e)) e.

    (** pyfilter/utils.py:49-64 normalize (the returned tensor; the argument is left as [map nan_to_num weights]). *)
    Definition normalize (weights : list float) : res (list float) :=
      match weights with
      | [] => Raise IndexError
      | _ =>
          let w := map nan_to_num weights in
          let m := fmaxl w in
          let normalized := softmax (map (fun x => fsub x m) w) in
          Ok (if Beqb (fsum normalized) (B754_zero false)
              then map (fun _ => fdiv Bone (of_nat (length normalized))) normalized
              else normalized)
      end.

    (** pyfilter/utils.py:8-20 get_ess. *)
    Definition get_ess (weights : list float) (normalized : bool) : res float :=
      let! w := (if normalized then Ok weights else normalize weights) in
      Ok (fdiv Bone (fsum (map (fun x => fmul x x) w))).

    (** resampling.py:8-16 [_wrapper] around [systematic] for a one-dimensional argument. *)
    Definition systematic (how : division) (cumsum : list float -> list float) (weights : list float) (normalized : bool)
               (u : float) : res (list nat) :=
      let! w := (if normalized then Ok weights else normalize weights) in
      systematic_row how cumsum w u.

    (** [Tensor.floor]. *)
    Definition ffloor : float -> float := Bnearbyint mode_DN.

    (** Tensor.repeat_interleave on a range. *)
    Fixpoint repeat_interleave (start : nat) (reps : list nat) : list nat :=
      match reps with [] => [] | k :: r => repeat start k ++ repeat_interleave (S start) r end.

    Definition nonfinite (x : float) : bool := negb (is_finite x).
    Definition negative (x : float) : bool := Bltb x (B754_zero false).

    (** [torch.multinomial(p, m, replacement=True)]: it checks that there is something to draw and that the
        probabilities are finite, not negative and not all zero; otherwise [draw] (external). *)
    Definition multinomial_checked (draw : list float -> nat -> list nat) (p : list float) (m : nat) : res (list nat) :=
      if (m =? 0)%nat || existsb nonfinite p || existsb negative p || Beqb (fsum p) (B754_zero false)
      then Raise RuntimeError else Ok (draw p m).

    (** resampling.py:83-105 residual, one row.  [Tensor.long] of an integral number is [Btrunc]; a NaN or an infinity
        becomes a negative integer, which repeat_interleave refuses (so does every negative number).  The slice
        assignment at line 98 requires as many entries as line 96 says (a single entry would be repeated; it is never
        short of entries as long as sums of whole numbers are exact, that is up to 2^prec particles). *)
    Definition residual_row (draw : list float -> nat -> list nat) (w : list float) : res (list nat) :=
      let n := length w in
      let mw := map (fun x => fmul (of_nat n) x) w in
      let floored := map ffloor mw in
      let res := map (fun mf => fsub (fst mf) (snd mf)) (combine mw floored) in
      let numelems := fsum floored in
      let res := map (fun r => fdiv r numelems) res in
      if existsb nonfinite floored || existsb negative floored then Raise RuntimeError else
      let modded := repeat_interleave 0 (map (fun x => Z.to_nat (Btrunc x)) floored) in
      let aslong := Z.to_nat (Btrunc numelems) in
      if negb (length modded =? Nat.min aslong n)%nat then Raise RuntimeError else
      if Beqb numelems (of_nat n) then Ok modded else
      let! extra := multinomial_checked draw res (n - aslong) in
      Ok (modded ++ extra).

    (** resampling.py:8-16 [_wrapper] around [residual]. *)
    Definition residual (draw : list float -> nat -> list nat) (weights : list float) (normalized : bool)
      : res (list nat) :=
      let! w := (if normalized then Ok weights else normalize weights) in
      residual_row draw w.
  End Normalize.
End Floats.
