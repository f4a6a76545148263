(** What a user configures on a particle filter, written without the model's operations. *)
From Coq Require Import Reals List ZArith String.
From Verif.Model Require Import Base Container FilterConfig.
Import ListNotations.

Section Spec.
  Context {Ctx M Rs F : Type}.
  Implicit Types f g : pfilter Ctx M Rs F.

  (** Two filters set up alike, apart from threshold and proposal. *)
  Record same_setup f g : Prop := {
    ss_class : f_class g = f_class f;
    ss_particles : f_particles g = f_particles f;
    ss_batch : f_batch g = f_batch f;
    ss_resampler : f_resampler g = f_resampler f;
    ss_states : f_record_states g = f_record_states f;
    ss_moments : f_record_moments g = f_record_moments f;
    ss_nan : f_nan g = f_nan f;
    ss_intermediary : f_intermediary g = f_intermediary f;
    ss_model : forall ctx, f_builder g ctx = f_builder f ctx
  }.

  (** Fraction of the number of particles below which the filter resamples. *)
  Definition relative_threshold f : R := (f_threshold f / IZR (f_particles f))%R.

  (** A configuration some sequence of constructor and configuration calls can produce. *)
  Definition legal f : Prop :=
    (f_nan f = "skip"%string \/ f_nan f = "impute"%string) /\ (List.length (f_batch f) <= 1)%nat /\
    match pr_class (f_proposal f) with
    | CLinearized s | CGaussianLinearized s => (0 < l_steps s)%Z
    | _ => True
    end.

  (** [g] is obtained by [k] successive calls of an operation. *)
  Inductive iterated (op : pfilter Ctx M Rs F -> res (pfilter Ctx M Rs F)) : nat -> pfilter Ctx M Rs F -> pfilter Ctx M Rs F -> Prop :=
  | it_O : forall f, iterated op 0 f f
  | it_S : forall k f g h, iterated op k f g -> op g = Ok h -> iterated op (S k) f h.

  Definition product (l : list Z) : Z := fold_right Z.mul 1%Z l.
End Spec.

(** What the documentation of the proposals requires of a model: an affine hidden process, and linear observations. *)
Inductive demand : Type := AffineHidden | LinearObservations.
Definition demands (c : pclass) (q : demand) : Prop :=
  match c, q with
  | (CLinearGaussian | CGaussianLinear), _ => True
  | (CLinearized _ | CGaussianLinearized _), AffineHidden => True
  | _, _ => False
  end.
Definition offers {M} (affine linear : M -> bool) (m : M) (q : demand) : Prop :=
  match q with AffineHidden => affine m = true | LinearObservations => linear m = true end.
(** The look-ahead function a fresh proposal should use for a model: the user's own, or the default one. *)
Definition look_ahead_for {M F} (affine : M -> bool) (user : option (@pwf F)) (m : M) (w : @pwf F) : Prop :=
  match user with Some f => w = f | None => (affine m = true -> w = AffineMean) /\ (affine m = false -> w = Missing) end.
