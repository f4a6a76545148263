(** What it means that a whole fit of SMC2 is right on average. *)
From Coq Require Import Reals List Arith.
From Verif.Model Require Import Base Xf Pmmh Sequential.
From Verif.Spec Require Import WeightsSpec ParticleSpec ResamplingSpec SequentialSpec UnbiasedSpec ConvergeSpec StationarySpec ProperSpec RejuvenateSpec.
Import ListNotations.
Local Open Scope nat_scope.

(** [k] positions of a stream are drawn, the others are those of [base]. *)
Definition streams {U D} (LU : law U) (LD : law D) (k : nat) (base : @stream U D) : law (@stream U D) :=
  Law (possible LU LD) (fun f => exists_average LU LD k 0 f base) (fun f => average LU LD k 0 f base).

(** Thresholds that fix when to rejuvenate: above one (always) or below 1/B (never).  [sched j]: after observation [j]. *)
Definition scheduled (c : smc2_cfg) (B : nat) (sched : nat -> bool) : Prop :=
  forall j, if sched j then (1 < c_threshold c (S j))%R else (c_threshold c (S j) * INR B <= 1)%R.

(** * A fit *)
Section Fit.
  Context {T F Y K : Type} (E : env T F Y K).
  (** A weighted sum over the particles. *)
  Definition weights_value (w : list xf) (h : T * (F * xf) -> R) (ctx : list T) (fs : list (F * xf)) : R :=
    (/ INR (e_B E) * Rsum (map (fun b => weight_at w b * particle_value h ctx fs b)%R (seq 0 (e_B E))))%R.
  (** The mean weight once the observation [y] has been filtered. *)
  Definition likelihood_at (g : @world T) (y : Y) (s : @sstate F Y) (b : nat) : R :=
    match nth_error (g_model g) b, nth_error (g_ctx g) b, nth_error (s_fs s) b with
    | Some t, Some t', Some f => mass (snd (e_step E (g_rnd g) (g_np g) b t t' y (fst f)))
    | _, _, _ => 0%R
    end.
  Definition mean_then (g : @world T) (y : Y) (s : @sstate F Y) : R :=
    (/ INR (e_B E) * Rsum (map (fun b => weight_at (s_w s) b * likelihood_at g y s b)%R (seq 0 (e_B E))))%R.
  (** The weighted sum over the particles in the end, times the mean weights at which the particles were rejuvenated. *)
  Fixpoint fit_value (c : cfg) (cbs : list callback) (h : T * (F * xf) -> R) (a : @alg T) (ys : list Y) (s : @sstate F Y) : R :=
    match ys with
    | [] => weights_value (s_w s) h (g_ctx (a_world a)) (s_fs s)
    | y :: r => match step E c cbs a y s with
                | (a', Ok (s', _)) => ((if g_updates (a_world a') =? g_updates (a_world a) then 1 else mean_then (a_world a) y s) * fit_value c cbs h a' r s')%R
                | _ => 0%R
                end
    end.
  Definition whole_fit (c : cfg) (cbs : list callback) (np rnd : nat) (rows : list T) (ys : list Y) (h : T * (F * xf) -> R) : R :=
    match initialize_alg E c (new_alg np rnd) rows rows with (a, Ok s) => fit_value c cbs h a ys s | _ => 0%R end.
End Fit.

(** * Its draws *)
Section Exact.
  Context {T F Y K A Q U D : Type}.
  (** For an observation: the draw of the filters; of the resampling; of the moves (as in RejuvenateSpec.v). *)
  Definition block : Type := Q * (U * @stream D (list R)).
  Variable E : A -> (nat -> block) -> env T F Y K.
  Variables (LA : law A) (LQ : law Q) (LU : law U) (L : law D).
  (** The first parameters and states; one observation filtered in slot [b]. *)
  Variable rows : A -> list T.
  Variable init : A -> nat -> T -> F.
  Variable advance : Q -> nat -> T -> Y -> F -> F * xf.
  Variable pick : U -> list xf -> list nat.
  Variable cand : D -> nat -> T.
  Variable filt : nat -> D -> nat -> T -> F * xf.
  Variables (B np rnd k : nat) (sched : nat -> bool) (ys : list Y).
  Variable log_prior : T -> xf.
  Variable log_density : T -> R.

  (** Where the random numbers for observation [j] start, if there are [k] moves at each of the scheduled times. *)
  Fixpoint position (j : nat) : nat :=
    match j with
    | 0 => S rnd
    | S j => position j + 1 + if sched j then 2 + k * (3 + S j) else 0
    end.
  (** The program makes these draws at the positions of its random numbers where it asks for them. *)
  Record fit_draws : Prop := {
    fd_size : forall a w, e_B (E a w) = B;
    fd_init : forall a w b t, e_init (E a w) rnd np b t t = init a b t;
    fd_step : forall a w j b t y f, j < List.length ys -> e_step (E a w) (position j) np b t t y f = advance (fst (w j)) b t y f;
    fd_moves : forall a w j q, j < List.length ys -> sched j = true ->
      uses_draws (fun u m => E a (set_at w j (q, (u, m)))) pick cand (filt (S j)) B np (position j + 1) (firstn (S j) ys) log_prior log_density
  }.

  (** ... the same for one set of draws only. *)
  Record fit_draws_at (a : A) (w : nat -> block) : Prop := {
    fa_size : e_B (E a w) = B;
    fa_init : forall b t, e_init (E a w) rnd np b t t = init a b t;
    fa_step : forall j b t y f, j < List.length ys -> e_step (E a w) (position j) np b t t y f = advance (fst (w j)) b t y f;
    fa_moves : forall j, j < List.length ys -> sched j = true ->
      uses_draws (fun u m => E a (set_at w j (fst (w j), (u, m)))) pick cand (filt (S j)) B np (position j + 1) (firstn (S j) ys) log_prior log_density
  }.

  (** A particle after one more observation, and the likelihood of that observation. *)
  Definition advanced (q : Q) (b : nat) (y : Y) (z : T * (F * xf)) : T * (F * xf) :=
    let r := advance q b (fst z) y (fst (snd z)) in (fst z, (fst r, xadd (snd (snd z)) (snd r))).
  Definition gain (q : Q) (b : nat) (y : Y) (z : T * (F * xf)) : R := mass (snd (advance q b (fst z) y (fst (snd z)))).
  Definition future (y : Y) (h : T * (F * xf) -> R) (z : T * (F * xf)) : R := mean LQ (fun q => gain q 0 y z * h (advanced q 0 y z))%R.

  (** [M j]: parameters with the density of the candidates, filtered on the first [j] observations; the target is this
      measure, times [target].  [H j]: functions for which all averages exist (in an example, all). *)
  Variable M : nat -> measure (T * (F * xf)).
  Variable G : nat -> (T * (F * xf) -> T * (F * xf) -> R) -> Prop.
  Variable H : nat -> (T * (F * xf) -> R) -> Prop.
  Notation height := (target log_prior log_density).
  Record targets : Prop := {
    (** The first parameters are draws from the prior. *)
    tg_start : forall h m, H 0 h -> integral (M 0) (fun z => height z * h z)%R m ->
      averages LA (fun a => / INR B * Rsum (map (fun b => at_slot (rows a) b (fun t => h (t, (init a b t, Fin 0)))) (seq 0 B)))%R m;
    tg_rows : forall a, supp LA a -> List.length (rows a) = B /\ forall b t, nth_error (rows a) b = Some t -> among (M 0) (t, (init a b t, Fin 0));
    (** A filter on one more observation is the filter so far and another step; the likelihoods are numbers; slots have the same law. *)
    tg_step : forall j y h m, nth_error ys j = Some y -> H (S j) h -> integral (M (S j)) (fun z => height z * h z)%R m ->
      integral (M j) (fun z => mean LQ (fun q => height (advanced q 0 y z) * h (advanced q 0 y z)))%R m;
    tg_among : forall j y z q b, nth_error ys j = Some y -> among (M j) z -> supp LQ q -> b < B ->
      among (M (S j)) (advanced q b y z) /\ is_fin (snd (advance q b (fst z) y (fst (snd z))));
    tg_test : forall j y h, nth_error ys j = Some y -> H (S j) h ->
      H j (future y h) /\ forall z b, among (M j) z -> b < B -> averages LQ (fun q => gain q b y z * h (advanced q b y z))%R (future y h z);
    tg_proper : forall j z, among (M j) z -> proper (log_prior (fst z)) /\ proper (snd (snd z));
    (** The candidates follow it as well (C108). *)
    tg_slots : forall j, sched j = true -> same_slots L cand (filt (S j)) B;
    tg_closed : forall j b d z, sched j = true -> b < B -> supp L d -> among (M (S j)) z -> among (M (S j)) (proposed cand (filt (S j)) b d z);
    tg_reversible : forall j, sched j = true -> reversible (M (S j)) L (proposed cand (filt (S j)) 0) (G j);
    tg_testable : forall j b, sched j = true -> b < B -> testable (M (S j)) L (proposed cand (filt (S j)) b) height (G j) (H (S j))
  }.
  (** The law of all draws of a fit. *)
  Definition blocks (base : @stream D (list R)) : law block := and_then LQ (and_then LU (streams L (uniforms B) k base)).
  Definition all_draws (base : @stream D (list R)) (w0 : nat -> block) : law (A * (nat -> block)) := and_then LA (independent (blocks base) (List.length ys) w0).
End Exact.
