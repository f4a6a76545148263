(** Model of the mode finder of the linearised proposals: pyfilter/filters/particle/proposals/utils.py:30-216.
    The functions work elementwise over particles and parallel filters, so one particle is modelled. *)
From Coq Require Import Reals List Bool Arith.
From Verif.Model Require Import Base Xf.
Import ListNotations.
Local Open Scope nat_scope.

(** [tensor.sqrt()]. *)
Definition xsqrt (a : xf) : xf :=
  match a with
  | Fin x => if Rlt_dec x 0 then NaN else Fin (sqrt x)
  | PInf => PInf
  | NInf | NaN => NaN
  end.
(** [tensor.clip(min=0.0)]: NaN stays. *)
Definition clip0 (a : xf) : xf :=
  match a with NaN => NaN | _ => if xlt a (Fin 0) then Fin 0 else a end.
Definition xinv (a : xf) : xf := xdiv (Fin 1) a.

Section One.
  (** A hidden process of one dimension.  [grad], [hess]: derivatives of the log density at a location, by automatic
      differentiation (utils.py:64-66, 185, 188).  [alpha]: the step size; [second]: [use_hessian]. *)
  Variables (grad hess : xf -> xf) (alpha : R) (second : bool).

  (** utils.py:126-148, one iteration of find_mode: location and standard deviation.  Without second order
      information [step] is the step size itself and the gradient is not used (lines 119, 148). *)
  Definition find_mode_step (s : xf * xf) : xf * xf :=
    let (x, std) := s in
    let gradient := grad x in
    if second then
      let h := hess x in
      let d_h := clip0 (xmul (Fin 2) h) in
      let cov := xopp (xinv (xsub h d_h)) in
      (xadd x (xmul cov gradient), xsqrt cov)
    else (xadd x (Fin alpha), std).
  (** utils.py:99-156 find_mode: parameters of the normal distribution returned. *)
  Definition find_mode (num_steps : nat) (x std : xf) : xf * xf := Nat.iter num_steps find_mode_step (x, std).

  (** utils.py:180-204, one iteration of find_mode_legacy. *)
  Definition legacy_step (s : xf * xf) : xf * xf :=
    let (mean, std) := s in
    let gradient := grad mean in
    if second then
      let diag_hess := hess mean in
      let dh := clip0 (xmul (Fin 2) diag_hess) in
      let step := xinv (xadd (xopp diag_hess) dh) in
      (xadd mean (xmul step gradient), xsqrt step)
    else (xadd mean (xmul (Fin alpha) gradient), std).
  (** utils.py:158-216 find_mode_legacy; lines 207-210: the initial values are restored where the outcome is not
      finite. *)
  Definition find_mode_legacy (num_steps : nat) (mean std : xf) : xf * xf :=
    let (m, s) := Nat.iter num_steps legacy_step (mean, std) in
    if (xisfinite m && xisfinite s)%bool then (m, s) else (mean, std).
End One.

Section Vector.
  (** A hidden process of several dimensions, as the list of its coordinates. *)
  Variables (grad hess : list xf -> list xf) (alpha : R) (second : bool).
  (** Whether the *observation* has dimensions (utils.py:190). *)
  Variable obs_vector : bool.

  Definition xminl (l : list xf) : xf := xopp (xmaxl (map xopp l)).

  (** utils.py:187-204. *)
  Definition legacy_vstep (s : list xf * list xf) : list xf * list xf :=
    let (mean, std) := s in
    let gradient := grad mean in
    if second then
      let diag_hess := hess mean in
      let v := if obs_vector then map (fun _ => xminl diag_hess) diag_hess else diag_hess in
      let dh := map (fun v => clip0 (xmul (Fin 2) v)) v in
      let step := map (fun p => xinv (xadd (xopp (fst p)) (snd p))) (combine diag_hess dh) in
      (map (fun p => xadd (fst p) (xmul (fst (snd p)) (snd (snd p)))) (combine mean (combine step gradient)), map xsqrt step)
    else (map (fun p => xadd (fst p) (xmul (Fin alpha) (snd p))) (combine mean gradient), std).
  (** utils.py:207-210, coordinate by coordinate. *)
  Definition legacy_fill (p : (xf * xf) * (xf * xf)) : xf * xf :=
    let '((m, s), (m0, s0)) := p in if (xisfinite m && xisfinite s)%bool then (m, s) else (m0, s0).
  Definition find_mode_legacy_vector (num_steps : nat) (mean std : list xf) : list (xf * xf) :=
    let (m, s) := Nat.iter num_steps legacy_vstep (mean, std) in
    map legacy_fill (combine (combine m s) (combine mean std)).
End Vector.

(** utils.py:139-146: the covariance used by find_mode for a hidden process of several dimensions, when the Hessian is
    diagonal (eigenvalues are the diagonal entries, and the pseudo-inverse inverts the non-zero ones). *)
Definition find_mode_cov_diag (hess : list R) : list R :=
  let lambda_min := match hess with [] => 0%R | h :: r => fold_left Rmin r h end in
  let d_h := Rmax (2 * lambda_min) 0 in
  map (fun h => if Req_EM_T (h - d_h) 0 then 0%R else (- / (h - d_h))%R) hess.
