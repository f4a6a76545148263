(** What it means that a Markov chain of parameters leaves a distribution in place. *)
From Coq Require Import Reals List Arith.
From Verif.Model Require Import Xf Pmmh.
From Verif.Spec Require Import UnbiasedSpec.
Import ListNotations.
Local Open Scope nat_scope.

(** An integral: [integral f m] says that [f] has the integral [m]; only values [among] matter.  Its total mass may be
    infinite. *)
Record measure (Z : Type) : Type := Measure { among : Z -> Prop; integral : (Z -> R) -> R -> Prop }.
Arguments Measure {Z}. Arguments among {Z}. Arguments integral {Z}.
Record measure_ok {Z} (M : measure Z) : Prop := {
  integral_ext : forall f g m, (forall z, among M z -> f z = g z) -> integral M f m -> integral M g m;
  integral_one : forall f m m', integral M f m -> integral M f m' -> m = m';
  integral_lin : forall a b f g m m', integral M f m -> integral M g m' -> integral M (fun z => a * f z + b * g z)%R (a * m + b * m')%R
}.
(** A weighted sum. *)
Definition summing {Z} (l : list (Z * R)) : measure Z :=
  Measure (fun z => exists p, In (z, p) l) (fun f m => fold_right Rplus 0%R (map (fun q => (snd q * f (fst q))%R) l) = m).

Section Stationary.
  (** Chains move among [Z]; the candidate from [z] with the draw [d] is [next d z]. *)
  Context {Z D : Type} (M : measure Z) (L : law D) (next : D -> Z -> Z).
  (** The integral of a function of a point and the candidate drawn there. *)
  Definition twice (g : Z -> Z -> R) (m : R) : Prop :=
    (forall z, among M z -> dom L (fun d => g z (next d z))) /\ integral M (fun z => mean L (fun d => g z (next d z))) m.
  (** Points and candidates can be exchanged, in the integrals of the functions [G] (say, the absolutely integrable ones). *)
  Definition reversible (G : (Z -> Z -> R) -> Prop) : Prop := forall g m m', G g -> twice g m -> twice (fun z z' => g z' z) m' -> m' = m.

  (** [height]: the density of the target, up to a constant.  The chance to accept of Metropolis. *)
  Variable height : Z -> R.
  Definition chance (new old : R) : R := if Req_EM_T new 0 then 0%R else if Req_EM_T old 0 then 1%R else Rmin 1 (new / old).
  Definition moved (h : Z -> R) (z z' : Z) : R := (chance (height z') (height z) * h z' + (1 - chance (height z') (height z)) * h z)%R.
  (** Functions whose averages along the chain exist. *)
  Record testable (G : (Z -> Z -> R) -> Prop) (H : (Z -> R) -> Prop) : Prop := {
    test_class : forall h, H h -> G (fun z z' => Rmin (height z) (height z') * h z')%R;
    test_moved : forall h, H h -> forall z, among M z -> dom L (fun d => moved h z (next d z));
    test_there : forall h, H h -> exists m, twice (fun z z' => Rmin (height z) (height z') * h z')%R m;
    test_here : forall h, H h -> exists m, twice (fun z z' => Rmin (height z) (height z') * h z)%R m;
    test_next : forall h, H h -> H (fun z => mean L (fun d => moved h z (next d z)))
  }.
End Stationary.

(** * One chain of a PMMH run *)
(** The density that has the logarithm [x]. *)
Definition mass (x : xf) : R := match x with Fin r => exp r | _ => 0%R end.
Definition proper (x : xf) : Prop := match x with Fin _ | NInf => True | _ => False end.
Definition posterior {T F} (log_prior : T -> xf) (ll : F -> xf) (z : T * F) : R := (mass (log_prior (fst z)) * mass (ll (snd z)))%R.
(** Chain [b]: its parameters and the result of its filter. *)
Definition at_chain {T F K} (b : nat) (c : @chains T F K) (z : T * F) : Prop :=
  nth_error (positions c) b = Some (fst z) /\ nth_error (results c) b = Some (snd z).
Definition look_at {T F K} (b : nat) (h : T * F -> R) (c : @chains T F K) : R :=
  match nth_error (positions c) b, nth_error (results c) b with Some t, Some f => h (t, f) | _, _ => 0%R end.
(** Uniform numbers for [B] chains. *)
Definition uniforms (B : nat) : law (list R) := image (fun u => map u (seq 0 B)) (independent uniform B (fun _ => (/ 2)%R)).
(** The kernels are sampled row by row: [cand d b t] is the candidate of chain [b] from [t]. *)
Definition samples_ok {T D} (B : nat) (rvs : D -> list (T * T) -> list T) (scale : T) (cand : D -> nat -> T -> T) : Prop :=
  forall d rows, List.length rows = B -> List.length (rvs d (map (fun r => (r, scale)) rows)) = B /\
    forall b r, nth_error rows b = Some r -> nth_error (rvs d (map (fun r => (r, scale)) rows)) b = Some (cand d b r).
