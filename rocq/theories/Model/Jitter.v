(** Model of pyfilter/inference/sequential/kernels/jittering.py.  Floats are real numbers (no rounding, no NaN); matrices are
    lists of rows, one row for each parameter particle. *)
From Coq Require Import Reals List Arith.
From Verif.Model Require Import Base.
Import ListNotations.
Local Open Scope nat_scope.

Section Jitter.
  (** [eps]: EPS of constants.py:8.  [order l]: the indices [l.sort(0)] returns; [argmin l]: the index [l.argmin(0)]
      returns (both unspecified for ties). *)
  Variable eps : R.
  Variable order : list R -> list nat.
  Variable argmin : list R -> nat.

  Definition column (x : list (list R)) (j : nat) : list R := map (fun r => nth j r 0%R) x.
  Definition rsum (l : list R) : R := fold_right Rplus 0%R l.
  (** [(w * c).sum(0)] *)
  Definition weighted_sum (w c : list R) : R := rsum (map (fun p => (fst p * snd p)%R) (combine w c)).
  Fixpoint cumsum_from (a : R) (l : list R) : list R :=
    match l with [] => [] | x :: r => (a + x)%R :: cumsum_from (a + x)%R r end.

  (** jittering.py:11-22. *)
  Definition jitter_values (values noise : list (list R)) (scale : list R) : list (list R) :=
    map (fun p => map (fun q => (fst (fst q) + snd q * snd (fst q))%R) (combine (combine (fst p) (snd p)) scale)) (combine values noise).

  (** jittering.py:25-34, 37-46.  Not used by the package. *)
  Definition silverman (n : nat) (ess : R) : R := Rpower (ess * (INR n + 2) / 4) (- 1 / (INR n + 4)).
  Definition scott (n : nat) (ess : R) : R := (1059 / 1000 * Rpower ess (- 1 / (INR n + 4)))%R.

  (** jittering.py:49-83, for one column [c] with mean [m]. *)
  Definition robust_var_column (c w : list R) (m : R) : R :=
    let idx := order c in
    let sorted := map (fun i => nth i c 0%R) idx in
    let cum := cumsum_from 0%R (map (fun i => nth i w 0%R) idx) in
    let low := argmin (map (fun a => Rabs (a - 1 / 4)) cum) in
    let high := argmin (map (fun a => Rabs (a - 3 / 4)) cum) in
    let iqr := ((nth high sorted 0 - nth low sorted 0) / (1349 / 1000))%R in
    let iqr2 := (iqr ^ 2)%R in
    let var := weighted_sum w (map (fun a => ((a - m) ^ 2)%R) c) in
    if Rle_dec iqr2 var then iqr2 else var.

  (** The scale argument of ConstantKernel (jittering.py:211-220): a float, or a tensor with one or with [d] components. *)
  Inductive scale_arg : Type := ScaleFloat (r : R) | ScaleTensor (l : list R).
  (** jittering.py:86-100, 140-145, 161-164, 176-195, 206-220. *)
  Inductive kernel : Type :=
  | Shrinking (min_std : R)
  | NonShrinking (min_std : R)
  | LiuWest (min_std a bw_fac : R)
  | ConstantScale (min_std : R) (scale : scale_arg).
  Definition min_std (k : kernel) : R := match k with Shrinking m | NonShrinking m | LiuWest m _ _ | ConstantScale m _ => m end.
  (** jittering.py:184-195; math.sqrt of a negative number raises. *)
  Definition liu_west (a : R) : res kernel :=
    if Rle_dec 0 (1 - a ^ 2) then Ok (LiuWest eps a (sqrt (1 - a ^ 2))) else Raise ValueError.
  (** jittering.py:211-220. *)
  Definition constant_kernel (scale : scale_arg) : kernel := ConstantScale eps scale.

  (** [t.clamp(low, high)] *)
  Definition clamp (low high t : R) : R := Rmin (Rmax t low) high.
  (** pyfilter/utils.py:8-20 with [normalized=True]. *)
  Definition ess_normalized (w : list R) : R := (1 / rsum (map (fun a => a ^ 2) w))%R.
  (** jittering.py:149-150, 167-168. *)
  Definition bandwidth (w : list R) : R := clamp eps (1 - eps) (159 / 100 * Rpower (ess_normalized w) (- 1 / 3)).

  (** [x[indices]] *)
  Fixpoint gather (x : list (list R)) (indices : list nat) : res (list (list R)) :=
    match indices with
    | [] => Ok []
    | i :: r => match nth_error x i with None => Raise IndexError | Some a => let! b := gather x r in Ok (a :: b) end
    end.
  Definition width (x : list (list R)) : nat := List.length (nth 0 x []).
  Definition column_means (x : list (list R)) (w : list R) : list R := map (fun j => weighted_sum w (column x j)) (seq 0 (width x)).
  Definition robust_var (x : list (list R)) (w : list R) : list R :=
    map (fun j => robust_var_column (column x j) w (weighted_sum w (column x j))) (seq 0 (width x)).

  (** jittering.py:148-158 (fit of ShrinkingKernel), 166-173, 197-203, 222-225.  [None] as second component stands for a
      float scale. *)
  Definition fit (k : kernel) (x : list (list R)) (w : list R) (indices : list nat) : res (list (list R) * option (list R)) :=
    let mean := column_means x w in
    match k with
    | Shrinking _ =>
        let bw := bandwidth w in
        let beta := sqrt (1 - bw ^ 2) in
        let! means := gather (map (fun r => map (fun p => (snd p + beta * (fst p - snd p))%R) (combine r mean)) x) indices in
        Ok (means, Some (map (fun v => (bw * sqrt v)%R) (robust_var x w)))
    | NonShrinking _ =>
        let bw := bandwidth w in
        let! values := gather x indices in
        Ok (values, Some (map (fun v => (bw * sqrt v)%R) (robust_var x w)))
    | LiuWest _ a bw =>
        let! values := gather (map (fun r => map (fun p => (fst p * a + (1 - a) * snd p)%R) (combine r mean)) x) indices in
        Ok (values, Some (map (fun v => (bw * sqrt v)%R) (robust_var x w)))
    | ConstantScale _ s =>
        let! values := gather x indices in
        Ok (values, match s with
                    | ScaleFloat _ => None
                    | ScaleTensor [r] => Some (repeat r (width x))
                    | ScaleTensor l => Some l
                    end)
    end.

  (** jittering.py:117-134; [noise]: the standard normals of line 22.  Clamping above at infinity does nothing. *)
  Definition jitter (k : kernel) (x : list (list R)) (w : list R) (indices : list nat) (noise : list (list R)) : res (list (list R)) :=
    if negb (List.length indices =? List.length x) then Raise GenericException
    else
      let! ms := fit k x w indices in
      match snd ms with
      | None => Raise AttributeError
      | Some scale =>
          if negb (List.length scale =? width x) then Raise RuntimeError
          else Ok (jitter_values (fst ms) noise (map (fun s => Rmax s (min_std k)) scale))
      end.
End Jitter.
