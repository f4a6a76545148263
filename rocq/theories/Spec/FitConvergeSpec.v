(** What it means that the estimates of SMC2 converge as the number of parameter particles grows, if the particles are
    rejuvenated whenever their effective sample size is low. *)
From Coq Require Import Reals List Arith.
From Verif.Model Require Import Base Xf Pmmh Sequential.
From Verif.Spec Require Import WeightsSpec ParticleSpec ResamplingSpec SequentialSpec UnbiasedSpec ConvergeSpec StationarySpec ProperSpec RejuvenateSpec ExactSpec.
Import ListNotations.
Local Open Scope nat_scope.

(** After which observations a fit rejuvenates its particles. *)
Section Schedule.
  Context {T F Y K : Type} (E : env T F Y K).
  Definition updates_after (c : cfg) (cbs : list callback) (np rnd : nat) (rows : list T) (ys : list Y) (j : nat) : nat :=
    g_updates (a_world (fst (fit_alg E c cbs (new_alg np rnd) rows rows (firstn j ys)))).
  Definition rejuvenates (c : cfg) (cbs : list callback) (np rnd : nat) (rows : list T) (ys : list Y) (j : nat) : bool :=
    negb (updates_after c cbs np rnd rows ys (S j) =? updates_after c cbs np rnd rows ys j).
End Schedule.

Section Grow.
  Context {T F Y A Q U D : Type}.
  Variables (LA : law A) (LQ : law Q) (LU : law U) (L : law D).
  Variable rows : A -> list T.
  Variable init : A -> nat -> T -> F.
  Variable advance : Q -> nat -> T -> Y -> F -> F * xf.
  Variable pick : U -> list xf -> list nat.
  Variable cand : D -> nat -> T.
  Variable filt : nat -> D -> nat -> T -> F * xf.
  Variables (B k : nat) (ys : list Y).
  Variable log_prior : T -> xf.
  Variable log_density : T -> R.
  Variable M : nat -> measure (T * (F * xf)).
  Variable H : nat -> (T * (F * xf) -> R) -> Prop.
  Notation height := (target log_prior log_density).
  (** The draws of different slots are independent, as far as averages of products go; the likelihoods of single
      observations are at most [gmax]; resampling has errors of the usual size. *)
  Record separate_draws (gmax kappa : R) : Prop := {
    sd_gain : forall j y z q b, nth_error ys j = Some y -> among (M j) z -> supp LQ q -> b < B -> (gain advance q b y z <= gmax)%R;
    sd_start : forall h m, H 0 h -> integral (M 0) (fun z => height z * h z)%R m ->
      (forall b, b < B -> averages LA (fun a => at_slot (rows a) b (fun t => h (t, (init a b t, Fin 0)))) m) /\
      (forall b b', b < b' -> b' < B -> averages LA (fun a => at_slot (rows a) b (fun t => h (t, (init a b t, Fin 0))) * at_slot (rows a) b' (fun t => h (t, (init a b' t, Fin 0))))%R (m * m)%R);
    sd_step : forall j y h z z' b b', nth_error ys j = Some y -> H (S j) h -> among (M j) z -> among (M j) z' -> b < b' -> b' < B ->
      averages LQ (fun q => (gain advance q b y z * h (advanced advance q b y z)) * (gain advance q b' y z' * h (advanced advance q b' y z')))%R
        (future LQ advance y h z * future LQ advance y h z')%R;
    sd_moves : forall j h z z' b b', j < List.length ys -> H (S j) h -> among (M (S j)) z -> among (M (S j)) z' -> b < b' -> b' < B ->
      averages L (fun d => moved height h z (proposed cand (filt (S j)) b d z) * moved height h z' (proposed cand (filt (S j)) b' d z'))%R
        (mean L (fun d => moved height h z (proposed cand (filt (S j)) 0 d z)) * mean L (fun d => moved height h z' (proposed cand (filt (S j)) 0 d z')))%R;
    sd_pick : forall p f C, prob_vec p -> List.length p = B -> (forall i, i < B -> (Rabs (f i) <= C)%R) ->
      at_most LU (fun u => square (/ INR B * Rsum (map f (pick u (map Fin p))) - sum_below B (fun i => nth i p 0 * f i)))%R (kappa * square C / INR B)%R
  }.

  (** [f] is on average at most [c], over the draws for one observation; over those for [n] observations from [j] on, the
      others as in [w]; over all draws of a fit. *)
  Definition at_most_block (base : @stream D (list R)) (f : @block Q U D -> R) (c : R) : Prop :=
    exists F2 F1, (forall q u, supp LQ q -> supp LU u -> at_most_over L (uniforms B) k 0 (fun m => f (q, (u, m))) base (F2 q u)) /\
      (forall q, supp LQ q -> at_most LU (F2 q) (F1 q)) /\ at_most LQ F1 c.
  Fixpoint at_most_blocks (base : @stream D (list R)) (n j : nat) (f : (nat -> @block Q U D) -> R) (w : nat -> block) (c : R) : Prop :=
    match n with
    | 0 => (f w <= c)%R
    | S n => exists F, (forall bl, supp (blocks LQ LU L B k base) bl -> at_most_blocks base n (S j) f (set_at w j bl) (F bl)) /\ at_most_block base F c
    end.
  Definition at_most_fit (base : @stream D (list R)) (w0 : nat -> block) (f : A -> (nat -> @block Q U D) -> R) (c : R) : Prop :=
    exists F, (forall a, supp LA a -> at_most_blocks base (List.length ys) 0 (f a) w0 (F a)) /\ at_most LA F c.
End Grow.
